(** The rules of src/stl_scanner.lpp as regular expressions, and what a scanner for them is to do. *)
From Coq Require Import List Bool String Ascii ZArith Arith.
From Verif Require Import Num Base Driver Parser.
Import ListNotations.
Local Open Scope string_scope.
Local Open Scope nat_scope.

(** Sets of characters: ranges of codes, or all but these. *)
Inductive regex :=
| Empty
| Eps
| Chars (but : bool) (l : list (nat * nat))
| Seq (a b : regex)
| Alt (a b : regex)
| Star (a : regex).
Definition in_ranges (l : list (nat * nat)) (c : ascii) : bool :=
  existsb (fun p => (fst p <=? nat_of_ascii c) && (nat_of_ascii c <=? snd p)) l.
Definition in_set (but : bool) (l : list (nat * nat)) (c : ascii) : bool := xorb but (in_ranges l c).

Inductive matches : regex -> string -> Prop :=
| Ma_eps : matches Eps ""
| Ma_char : forall but l c, in_set but l c = true -> matches (Chars but l) (String c "")
| Ma_seq : forall a b s t, matches a s -> matches b t -> matches (Seq a b) (s ++ t)
| Ma_left : forall a b s, matches a s -> matches (Alt a b) s
| Ma_right : forall a b s, matches b s -> matches (Alt a b) s
| Ma_stop : forall a, matches (Star a) ""
| Ma_more : forall a s t, matches a s -> matches (Star a) t -> matches (Star a) (s ++ t).

(** ** The rules *)
Definition one (c : nat) : regex := Chars false [(c, c)].
Fixpoint literally (s : string) : regex :=
  match s with
  | EmptyString => Eps
  | String c EmptyString => one (nat_of_ascii c)
  | String c s' => Seq (one (nat_of_ascii c)) (literally s')
  end.
Definition plus (a : regex) : regex := Seq a (Star a).
Definition maybe (a : regex) : regex := Alt a Eps.
(** . in flex: all but the newline. *)
Definition dot : regex := Chars true [(10, 10)].
Definition digit : regex := Chars false [(48, 57)].
Definition sign : regex := Chars false [(45, 45); (43, 43)].
Definition letter : regex := Chars false [(97, 122); (65, 90)].
Definition letter_or_digit : regex := Chars false [(65, 90); (97, 122); (48, 57); (95, 95)].
Definition quote : regex := one 34.

(** stl_scanner.lpp:62-159, in the order of the file; the symbols are lines 71-92. *)
Definition rules : list regex :=
  [plus (Chars false [(32, 32); (9, 9); (13, 13)]); one 10]
  ++ map literally ["<>"; "<>_"; "[]"; "[]_"; "["; "]"; "("; ")"; "=>"; "->"; "<"; ">"; "<="; ">="; "!"; ","; "&"; "|"; ":="; "+"; "-"; "*"]
  ++ [Seq letter (Star letter_or_digit);
      Seq (maybe sign) (Seq (Star digit) (Seq (one 46) (plus digit)));
      Seq (maybe sign) (Seq (Star digit) (one 46));
      Seq (maybe sign) (plus digit);
      Seq quote (Seq (Star (Alt (Seq (one 92) dot) (Chars true [(92, 92); (34, 34)]))) quote);
      Seq (one 35) (Seq (Star dot) (one 10));
      dot].

(** Rule number [k], from 1 on, matches. *)
Definition by_rule (k : nat) (w : string) : Prop := exists r, 1 <= k /\ nth_error rules (k - 1) = Some r /\ matches r w.
(** [w], by rule [k], is what flex takes from [s]: as much as any rule can, by the first rule that can. *)
Definition taken (k : nat) (w s : string) : Prop :=
  (exists r, s = w ++ r) /\ by_rule k w /\ (forall j, by_rule j w -> k <= j) /\
  forall j w' r, s = w' ++ r -> by_rule j w' -> String.length w' <= String.length w.

(** ** What a call of the scanner is to find: blanks, line ends and comments are left out. *)
Definition left_out (k : nat) : Prop := k = 1 \/ k = 2 \/ k = 30.
Inductive next_token : string -> option (nat * string) -> string -> Prop :=
| Nt_end : next_token "" None ""
| Nt_skip : forall k w r o r', taken k w (w ++ r) -> left_out k -> next_token r o r' -> next_token (w ++ r) o r'
| Nt_token : forall k w r, taken k w (w ++ r) -> ~ left_out k -> next_token (w ++ r) (Some (k, w)) r.

(** ** What a match stands for *)
Section Means.
Context {T : Type} {N : Num T}.
Local Notation sval := (sval (T := T)).
(** The tokens of rules 3 to 24. *)
Definition symbol_tokens : list Z :=
  [DIAMOND; DIAMOND; BOX; BOX; LINT; RINT; LPAREN; RPAREN; IMPLIES; IMPLIES; LT; GT; LT; GT; NOT; COMMA; AND; OR; ASSIGN; PLUS; MINUS; MULT].
Inductive means (d : parsed (T := T)) : option (nat * string) -> Z -> sval -> Prop :=
| Me_end : means d None 0 VNone
| Me_symbol : forall k w t, 3 <= k -> nth_error symbol_tokens (k - 3) = Some t -> means d (Some (k, w)) t VNone
| Me_keyword : forall w t, find w reserved = Some t -> means d (Some (25, w)) t VNone
| Me_word : forall w, find w reserved = None -> means d (Some (25, w)) (word_token d w) (VStr w)
| Me_number : forall k w, 26 <= k <= 28 -> means d (Some (k, w)) CONSTANT (VStr w)
| Me_string : forall s, means d (Some (29, """" ++ s ++ """")) STRING (VStr s)
| Me_char : forall c, means d (Some (31, String c "")) (char_token c) VNone.
End Means.
