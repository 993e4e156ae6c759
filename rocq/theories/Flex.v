(** Model of the generated scanner, src/stl_scanner.cpp: the matching loop on the tables, the
    end of the buffer, and reading the text in pieces.  Simplified: positions are relative to
    the first character of the token (yytext_ptr); the growth of the buffer, the character that
    is replaced by NUL behind yytext between two calls, and the locations are left out. *)
From Coq Require Import List Bool String Ascii ZArith Arith.
From Verif Require Import Num Base Signal Robust Transducer Driver Tables Parser FlexTables.
Import ListNotations.
Local Open Scope string_scope.
Local Open Scope nat_scope.

(** Reading a table; outside its bounds the behaviour is undefined. *)
Definition entry (l : list nat) (i : nat) : res nat := match nth_error l i with Some x => Ok x | None => UB end.
Definition nul : ascii := ascii_of_nat 0.
(** stl_scanner.cpp:402, the action at the end of the buffer, and 788, the state without successors. *)
Definition END_OF_BUFFER := 33.
Definition jam := 46.

(** stl_scanner.cpp:779-786: the next state on a class of characters. *)
Fixpoint next_state (fuel st c : nat) : res nat :=
  match fuel with
  | O => OutOfFuel
  | S k =>
      b <- entry yy_base st ;;
      x <- entry yy_chk (b + c) ;;
      if x =? st then entry yy_nxt (b + c)
      else
        st' <- entry yy_def st ;;
        if 47 <=? st' then c' <- entry yy_meta c ;; next_state k st' c'
        else next_state k st' c
  end.
(** A template, and the state the templates lead to. *)
Definition chain := 4.

(** The buffer: the text from the first character of the token on, then two NULs. *)
Definition char_at (b : string) (i : nat) : res ascii :=
  match String.get i b with
  | Some c => Ok c
  | None => if i <? String.length b + 2 then Ok nul else UB
  end.

(** yy_last_accepting_state and yy_last_accepting_cpos. *)
Definition mark : Type := (nat * nat)%type.
(** stl_scanner.cpp:774-778. *)
Definition remember (st cp : nat) (last : mark) : res mark :=
  a <- entry yy_accept st ;; Ok (if a =? 0 then last else (st, cp)).

(** stl_scanner.cpp:770-790: the loop, then back to the last accepting state. *)
Fixpoint yy_match (fuel : nat) (b : string) (st cp : nat) (last : mark) : res mark :=
  match fuel with
  | O => OutOfFuel
  | S k =>
      ch <- char_at b cp ;;
      c <- entry yy_ec (nat_of_ascii ch) ;;
      last <- remember st cp last ;;
      st' <- next_state chain st c ;;
      if st' =? jam then Ok last else yy_match k b st' (S cp) last
  end.

(** stl_scanner.cpp:1425-1455: the state after the [n] characters from position [cp] on. *)
Fixpoint previous_state (n : nat) (b : string) (st cp : nat) (last : mark) : res (nat * mark) :=
  match n with
  | O => Ok (st, last)
  | S k =>
      ch <- char_at b cp ;;
      c <- (if Ascii.eqb ch nul then Ok 1 else entry yy_ec (nat_of_ascii ch)) ;;
      last <- remember st cp last ;;
      st' <- next_state chain st c ;;
      previous_state k b st' (S cp) last
  end.
(** stl_scanner.cpp:1463-1490; [None] for a jam. *)
Definition try_NUL_trans (st cp : nat) (last : mark) : res (option nat * mark) :=
  last <- remember st cp last ;;
  st' <- next_state chain st 1 ;;
  Ok (if st' =? jam then None else Some st', last).

(** What is left to read: the buffer from the token on, and what the calls of LexerInput will
    return, until one returns nothing: one that returns nothing ends the list. *)
Record input := mkIn { in_buf : string; in_reads : list string }.

(** The labels yy_match and yy_find_action. *)
Inductive label := Match (st cp : nat) | FindAction (st cp : nat).

(** stl_scanner.cpp:768-800, 1052-1174: one token: the action and the length, or the end of the file.  *)
Fixpoint scan (fuel : nat) (l : label) (i : input) (last : mark) : res (option (nat * nat) * input * mark) :=
  match fuel with
  | O => OutOfFuel
  | S k =>
      match l with
      | Match st cp =>
          last <- yy_match (String.length (in_buf i) + 3) (in_buf i) st cp last ;;
          scan k (FindAction (fst last) (snd last)) i last
      | FindAction st cp =>
          act <- entry yy_accept st ;;
          if act =? 0 then scan k (FindAction (fst last) (snd last)) i last
          else if act =? END_OF_BUFFER then
            let matched := cp - 1 in
            if cp <=? String.length (in_buf i) then
              '(st, last) <- previous_state matched (in_buf i) 1 0 last ;;
              '(next, last) <- try_NUL_trans st matched last ;;
              match next with
              | Some st' => scan k (Match st' cp) i last
              | None => scan k (FindAction (fst last) (snd last)) i last
              end
            else
              match in_reads i with
              | nil =>
                  if matched =? 0 then Ok (None, i, last)
                  else
                    '(st, last) <- previous_state matched (in_buf i) 1 0 last ;;
                    scan k (FindAction st matched) i last
              | r :: rs =>
                  let i := mkIn (in_buf i ++ r) rs in
                  '(st, last) <- previous_state matched (in_buf i) 1 0 last ;;
                  scan k (Match st matched) i last
              end
          else Ok (Some (act, cp), i, last)
      end
  end.
Definition all_text (i : input) : string := in_buf i ++ fold_right append "" (in_reads i).
Definition scan_fuel (i : input) : nat := 2 * (String.length (all_text i) + List.length (in_reads i)) + 6.

Section Lexer.
Context {T : Type} {N : Num T}.
Local Notation parsed := (parsed (T := T)).
Local Notation sval := (sval (T := T)).

(** stl_scanner.cpp:797-1048, the actions; [None] where the loop goes on.  ECHO
    (32) and the fatal error are [Exn]. *)
Definition act_on (d : parsed) (act : nat) (w : string) : res (option (Z * sval)) :=
  match act with
  | 1 | 2 | 30 => Ok None
  | 3 | 4 => Ok (Some (DIAMOND, VNone))
  | 5 | 6 => Ok (Some (BOX, VNone))
  | 7 => Ok (Some (LINT, VNone))
  | 8 => Ok (Some (RINT, VNone))
  | 9 => Ok (Some (LPAREN, VNone))
  | 10 => Ok (Some (RPAREN, VNone))
  | 11 | 12 => Ok (Some (IMPLIES, VNone))
  | 13 | 15 => Ok (Some (LT, VNone))
  | 14 | 16 => Ok (Some (GT, VNone))
  | 17 => Ok (Some (NOT, VNone))
  | 18 => Ok (Some (COMMA, VNone))
  | 19 => Ok (Some (AND, VNone))
  | 20 => Ok (Some (OR, VNone))
  | 21 => Ok (Some (ASSIGN, VNone))
  | 22 => Ok (Some (PLUS, VNone))
  | 23 => Ok (Some (MINUS, VNone))
  | 24 => Ok (Some (MULT, VNone))
  | 25 => Ok (Some (word_token d w, match find w reserved with Some _ => VNone | None => VStr w end))
  | 26 | 27 | 28 => Ok (Some (CONSTANT, VStr w))
  | 29 => Ok (Some (STRING, VStr (substring 1 (String.length w - 2) w)))
  | 31 => match w with String c _ => Ok (Some (char_token c, VNone)) | EmptyString => UB end
  | _ => Exn
  end.

(** stl_scanner.cpp:702-1180: tokens until one is returned. *)
Fixpoint flex (fuel : nat) (d : parsed) (i : input) (last : mark) : res (Z * sval * input * mark) :=
  match fuel with
  | O => OutOfFuel
  | S k =>
      '(m, i, last) <- scan (scan_fuel i) (Match 1 0) i last ;;
      match m with
      | None => Ok (0%Z, VNone, i, last)
      | Some (act, len) =>
          let i' := mkIn (substring len (String.length (in_buf i)) (in_buf i)) (in_reads i) in
          r <- act_on d act (substring 0 len (in_buf i)) ;;
          match r with
          | Some (t, v) => Ok (t, v, i', last)
          | None => flex k d i' last
          end
      end
  end.
End Lexer.
