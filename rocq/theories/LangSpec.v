(** The texts the parser is to accept, and what they do: independent of the automaton.  The tokens and the
    grammar of formulas are those of ParserSpec.v. *)
From Coq Require Import List Bool String Ascii ZArith.
From Verif Require Import Num Base Signal Robust Transducer TreeProof Driver ParserSpec.
Import ListNotations.
Local Open Scope string_scope.

(** ** Words *)
Inductive word :=
| W (k : tok)                       (* a token of a formula *)
| KNew (x : string)                 (* a name that means nothing yet *)
| KTestName (x : string)            (* the name of a test *)
| KText (s : string)                (* a text in quotes *)
| KDefine | KParamWord | KSignalWord | KTestWord | KTrue | KFalse | KColon | KEqual | KOpen | KClose.

Definition marks : list (word * string) :=
  [(KDefine, ":="); (KParamWord, "param"); (KSignalWord, "signal"); (KTestWord, "test"); (KTrue, "true"); (KFalse, "false");
   (KColon, ":"); (KEqual, "="); (KOpen, "{"); (KClose, "}")].

Definition quote_char := ascii_of_nat 34.
Definition backslash := ascii_of_nat 92.
(** What may stand between quotes. *)
Inductive quotable : string -> Prop :=
| Qt_nil : quotable ""
| Qt_char : forall c s, c <> quote_char -> c <> backslash -> quotable s -> quotable (String c s)
| Qt_escape : forall c s, c <> newline_char -> quotable s -> quotable (String backslash (String c s)).
Definition literal (s : string) : string := String quote_char (s ++ String quote_char "").

(** The scanner takes the longest piece it can. *)
Definition symbol_texts : list string :=
  ["<>"; "<>_"; "[]"; "[]_"; "["; "]"; "("; ")"; "=>"; "->"; "<"; ">"; "<="; ">="; "!"; ","; "&"; "|"; ":="; "+"; "-"; "*"].
Definition piece (u : string) : Prop :=
  identifier u \/ numeral u \/ In u symbol_texts \/ (exists s, quotable s /\ u = literal s).
Definition longest (w r : string) : Prop :=
  forall u r', w ++ r = u ++ r' -> piece u -> String.length u <= String.length w.

(** A text ends where only blanks and comments remain, or at a character that is NUL or not ASCII: what
    follows such a character is not looked at. *)
Definition ends (s : string) : Prop :=
  gap s \/ (exists g c r, gap g /\ s = g ++ String c r /\ (nat_of_ascii c = 0 \/ 128 <= nat_of_ascii c)).

Section Language.
Context {T : Type} {N : Num T}.
Variable value : string -> option T.          (* the number a text denotes *)

(** What is known when a text is read: the driver and the names of the tests. *)
Definition known : Type := (driver T * list string)%type.

Definition column (d : known) (x : string) : option nat :=
  match find x (d_signals (fst d)) with Some i => if (0 <? i)%Z then Some (Z.to_nat i) else None | None => None end.
Definition meaning (d : known) (x : string) : option (fml T) := option_map skel (find x (d_formulas (fst d))).

Inductive spells_word (d : known) : word -> string -> Prop :=
| Sw_token : forall k w, spelling (fst d) k w -> spells_word d (W k) w
| Sw_mark : forall k w, In (k, w) marks -> spells_word d k w
| Sw_new : forall w, fresh (fst d) (snd d) w -> spells_word d (KNew w) w
| Sw_test : forall w, identifier w -> ~ In w keywords -> find w (d_formulas (fst d)) = None -> find w (d_params (fst d)) = None ->
    find w (d_signals (fst d)) = None -> In w (snd d) -> spells_word d (KTestName w) w
| Sw_text : forall s, quotable s -> spells_word d (KText s) (literal s).

(** A word, with what is known when it is read: that decides what kind of name a name is. *)
Definition item : Type := (known * word)%type.

(** [scanned l s r]: the items [l] are the first words of [s], and [r] is what follows. *)
Inductive scanned : list item -> string -> string -> Prop :=
| Sc_nil : forall s, scanned [] s s
| Sc_word : forall d k g w l s r, gap g -> spells_word d k w -> longest w s -> scanned l s r -> scanned ((d, k) :: l) (g ++ w ++ s) r.

Definition read_in (d : known) (ws : list word) : list item := map (pair d) ws.
Notation formula d := (formula value (column d) (meaning d) actual).

(** ** What statements do *)
Definition number_of (s : string) : T := match value s with Some v => v | None => n0 end.
Definition with_formula (d : known) (x : string) (t : tree T) : known :=
  (mkDrv (d_data (fst d)) (d_params (fst d)) (d_signals (fst d)) (assign x t (d_formulas (fst d))) (d_sem (fst d)) (d_ip (fst d)), snd d).
Definition with_param (d : known) (x : string) (v : T) : known :=
  (mkDrv (d_data (fst d)) (assign x v (d_params (fst d))) (d_signals (fst d)) (d_formulas (fst d)) (d_sem (fst d)) (d_ip (fst d)), snd d).
Definition with_signal (d : known) (x : string) : known :=
  (mkDrv (d_data (fst d)) (d_params (fst d))
     (assign x (to_short (Z.of_nat (List.length (d_signals (fst d))) + 1)) (d_signals (fst d)))
     (d_formulas (fst d)) (d_sem (fst d)) (d_ip (fst d)), snd d).
Definition with_test (d : known) (x : string) : known :=
  (fst d, if existsb (String.eqb x) (snd d) then snd d else x :: snd d).

(** A parameter, known or new, and its value. *)
Inductive setting : list word -> string -> string -> Prop :=
| Se_known : forall k v, setting [W (KParam k); KEqual; W (KNumber v)] k v
| Se_new : forall k v, setting [KNew k; KEqual; W (KNumber v)] k v.
Inductive params (d : known) : list item -> known -> Prop :=
| Pa_one : forall ws k v, setting ws k v -> params d (read_in d ws) (with_param d k (number_of v))
| Pa_more : forall l d1 ws k v, params d l d1 -> setting ws k v ->
    params d (l ++ read_in d1 (W KComma :: ws)) (with_param d1 k (number_of v)).

(** A signal, known or new. *)
Inductive signal_name (d : known) : word -> known -> Prop :=
| Si_known : forall x, signal_name d (W (KSignal x)) d
| Si_new : forall x, signal_name d (KNew x) (with_signal d x).
Inductive signals (d : known) : list item -> known -> Prop :=
| Sg_one : forall k d', signal_name d k d' -> signals d [(d, k)] d'
| Sg_more : forall l d1 k d', signals d l d1 -> signal_name d1 k d' -> signals d (l ++ read_in d1 [W KComma; k]) d'.

Inductive bool_word : word -> Prop := B_true : bool_word KTrue | B_false : bool_word KFalse.
(** Parameters in parentheses, of one test. *)
Inductive locals : list word -> Prop :=
| Lo_one : forall ws k v, setting ws k v -> locals ws
| Lo_more : forall l ws k v, locals l -> setting ws k v -> locals (l ++ W KComma :: ws).
Inductive local_part : list word -> Prop :=
| Lp_none : local_part []
| Lp_some : forall l, locals l -> local_part (W KLParen :: l ++ [W KRParen]).
Inductive test (d : known) : list item -> known -> Prop :=
| Te_new : forall x ps ts f p q a b k, local_part ps -> formula d ts f p q -> bool_word k ->
    test d (read_in d (KNew x :: ps ++ KOpen :: map W ts ++ [W KComma; KText a; W KComma; KText b; W KComma; k; KClose])) (with_test d x)
| Te_known : forall x ps, local_part ps -> test d (read_in d (KTestName x :: ps)) d.
Inductive tests (d : known) : list item -> known -> Prop :=
| Ts_one : forall l d', test d l d' -> tests d l d'
| Ts_more : forall l d1 l' d', tests d l d1 -> test d1 l' d' -> tests d (l ++ l') d'.
(** The head of a trace test, after the word test. *)
Inductive test_head : list word -> Prop :=
| Th_short : forall x e, test_head [KNew x; KColon; KText e]
| Th_long : forall x e v k, bool_word k -> test_head [KNew x; KColon; KText e; W KComma; W (KNumber v); W KComma; k].

(** One statement.  [s] is what is known when its first word is read, [d] what is known after the statements
    before it, and they may differ: the word after a definition is read before the definition takes effect, all other
    words after what precedes them has.  The result is what is known when the next word is read,
    and what is known after the statement. *)
Inductive statement (s d : known) : list item -> known -> known -> Prop :=
| St_define : forall x ts t p q, formula d ts (skel t) p q ->
    statement s d ((s, KNew x) :: read_in d (KDefine :: map W ts)) d (with_formula d x t)
| St_params : forall l d', params d l d' -> statement s d ((s, KParamWord) :: l) d' d'
| St_tests : forall h l d', test_head h -> tests d l d' ->
    statement s d ((s, KTestWord) :: read_in d (h ++ [KOpen]) ++ l ++ [(d', KClose)]) d' d'.

(** Any number of statements, at least one.  Signals can only be declared at the beginning, and only once. *)
Inductive program (d0 : known) : list item -> known -> known -> Prop :=
| Pr_signals : forall l d, signals d0 l d -> program d0 ((d0, KSignalWord) :: l) d d
| Pr_first : forall l s d, statement d0 d0 l s d -> program d0 l s d
| Pr_next : forall l s d l' s' d', program d0 l s d -> statement s d l' s' d' -> program d0 (l ++ l') s' d'.

(** The text is in the language, and leads from [d] to [d']. *)
Definition in_language (d : known) (text : string) (d' : known) : Prop :=
  exists l s rest, program d l s d' /\ scanned l text rest /\ gap rest.
(** The same, with the weaker notion of an end. *)
Definition accepted (d : known) (text : string) (d' : known) : Prop :=
  exists l s rest, program d l s d' /\ scanned l text rest /\ ends rest.
End Language.

(** Two drivers that differ only in what evaluations leave behind in the formulas. *)
Definition shapes {T : Type} {N : Num T} (m : list (string * tree T)) : list (string * fml T) := map (fun p => (fst p, skel (snd p))) m.
Definition alike_drv {T : Type} {N : Num T} (d e : driver T) : Prop :=
  d_data d = d_data e /\ d_params d = d_params e /\ d_signals d = d_signals e /\ shapes (d_formulas d) = shapes (d_formulas e) /\ d_sem d = d_sem e /\ d_ip d = d_ip e.
Definition like {T : Type} {N : Num T} (d e : known (T := T)) : Prop := alike_drv (fst d) (fst e) /\ snd d = snd e.
