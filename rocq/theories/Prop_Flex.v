(** C59: the generated scanner and its rules.  The rules, the longest match and the tokens are in FlexSpec.v. *)
From Coq Require Import List Bool String Ascii ZArith Arith Qcanon.
From Verif Require Import Num Base Signal Robust Transducer Driver Tables Parser FlexTables Flex FlexSpec FlexProof FlexRegex FlexLex FlexScan.
Import ListNotations.
Local Open Scope string_scope.
Local Open Scope nat_scope.

(** A call of the scanner, on what is left in its buffer and any further pieces of the text: the tables are not read
    out of bounds, and the token is the one the rules prescribe for the whole text; so is what remains. *)
Theorem C59_scanner : forall (T : Type) (d : parsed (T := T)) n i last, pieces i -> String.length (all_text i) < n ->
  exists t v i' last' o, flex n d i last = Ok (t, v, i', last') /\ pieces i' /\ next_token (all_text i) o (all_text i') /\ means d o t v.
Proof. exact @flex_means. Qed.
Print Assumptions C59_scanner.

(** The rules prescribe one token for every text. *)
Theorem C59_rules : (forall s, s <> "" -> exists k w, taken k w s) /\ (forall s k w k' w', taken k w s -> taken k' w' s -> k = k' /\ w = w') /\
  (forall s o r, next_token s o r -> forall o' r', next_token s o' r' -> o = o' /\ r = r').
Proof. exact (conj taken_exists (conj taken_unique next_unique)). Qed.
Print Assumptions C59_rules.

(** The lexer the parser of this model calls does what the rules prescribe. *)
Theorem C59_lexer : forall (T : Type) (d : parsed (T := T)) s,
  exists o, next_token s o (snd (yylex d s)) /\ means d o (fst (fst (yylex d s))) (snd (fst (yylex d s))).
Proof. exact @yylex_means. Qed.
Print Assumptions C59_lexer.

(** Any number of calls, with a driver that changes between them: the generated scanner returns what that lexer returns,
    whatever pieces the text is read in. *)
Theorem C59_calls : forall (T : Type) (ds : list (parsed (T := T))) i last, pieces i ->
  calls ds i last = Ok (lexer_calls ds (all_text i)).
Proof. exact @calls_ok. Qed.
Print Assumptions C59_calls.

(** A text with blanks, a comment, a quotation, signed numbers and a NUL, cut within tokens. *)
Definition cut_text : input :=
  mkIn "" ["al"; "w_[0,"; " -1"; ".5] # not"; " this
 x <"; "= "; """a\"""; "b"" 2"; "." ; String nul "->"; "_"].
Example C59_scanner_case : pieces cut_text /\ String.length (all_text cut_text) < 50.
Proof. split; [repeat constructor; discriminate|]. apply Nat.ltb_lt. vm_compute. reflexivity. Qed.
Example C59_calls_case : calls (T := Qc) (repeat (new_driver, []) 14) cut_text (0, 0) =
  Ok [(BOX, VNone); (LINT, VNone); (CONSTANT, VStr "0"); (COMMA, VNone); (CONSTANT, VStr "-1.5"); (RINT, VNone); (NEW_ID, VStr "x"); (LT, VNone);
      (STRING, VStr "a\""b"); (CONSTANT, VStr "2."); (0%Z, VNone); (IMPLIES, VNone); (95%Z, VNone); (0%Z, VNone)].
Proof. vm_compute. reflexivity. Qed.
Example C59_rules_case : taken 27 "2." "2.->" /\ next_token "2.->" (Some (27, "2.")) "->".
Proof.
  assert (K : taken 27 "2." "2.->").
  { Local Transparent delta acc class next_state entry.
    destruct (token_taken "2.->" ltac:(discriminate)) as (w & r & E & L & Tk). vm_compute in L.
    destruct w as [|a [|b [|c w]]]; try discriminate L. injection E as <- <- <-. exact Tk. }
  split; [exact K|]. apply (Nt_token 27 "2." "->"); [exact K|]. unfold left_out. intros [H|[H|H]]; discriminate H.
Qed.
Example C59_lexer_case : yylex (T := Qc) (new_driver, []) "# a
 1.x" = (CONSTANT, VStr "1.", "x").
Proof. reflexivity. Qed.
