(** Model of the scanner (src/stl_scanner.lpp), of the generated parser
    (src/stl_parser.cpp with the actions of src/stl_parser.ypp), of
    STLDriver::parse_string, of the printing of formulas and of
    signal_map_to_string and read_trace (src/tools.cpp). *)
From Coq Require Import List Bool String Ascii ZArith.
From Verif Require Import Num Base Signal Robust Transducer Driver Tables.
Import ListNotations.
Local Open Scope string_scope.
Local Open Scope Z_scope.

(** ** Characters *)

Definition code (c : ascii) : Z := Z.of_nat (nat_of_ascii c).
Definition is_digit (c : ascii) : bool := (48 <=? code c) && (code c <=? 57).
Definition is_alpha (c : ascii) : bool :=
  ((65 <=? code c) && (code c <=? 90)) || ((97 <=? code c) && (code c <=? 122)).
(** stl_scanner.lpp:96, [A-Za-z0-9_]. *)
Definition is_word (c : ascii) : bool := is_alpha c || is_digit c || (code c =? 95).
(** stl_scanner.lpp:62-69: blank, tab, carriage return, newline. *)
Definition is_blank (c : ascii) : bool := (code c =? 32) || (code c =? 9) || (code c =? 13) || (code c =? 10).
Definition newline : ascii := ascii_of_nat 10.

(** The longest prefix of characters satisfying [p], and the rest. *)
Fixpoint span (p : ascii -> bool) (s : string) : string * string :=
  match s with
  | EmptyString => ("", "")
  | String c s' => if p c then let '(a, b) := span p s' in (String c a, b) else ("", s)
  end.

(** ** Tokens

    stl_parser.h, enum yytokentype. *)
Definition LINT := 258. Definition RINT := 259. Definition LPAREN := 260. Definition RPAREN := 261.
Definition LT := 262. Definition NOT := 263. Definition GT := 264. Definition AND := 265.
Definition OR := 266. Definition IMPLIES := 267. Definition BOX := 268. Definition DIAMOND := 269.
Definition UNTIL := 270. Definition TIME := 271. Definition COMMA := 272. Definition ASSIGN := 274.
Definition PLUS := 275. Definition MINUS := 276. Definition MULT := 277. Definition ABS := 278.
Definition PARAM_DECL := 279. Definition SIGNAL_DECL := 280. Definition TEST := 281.
Definition BOOL_TRUE := 282. Definition BOOL_FALSE := 283. Definition CONSTANT := 285.
Definition PARAM_ID := 286. Definition PHI_ID := 287. Definition NEW_ID := 288.
Definition SIGNAL_ID := 289. Definition STL_TEST_ID := 290. Definition STRING := 291.

(** stl_scanner.lpp:171-198, the reserved words. *)
Definition reserved : list (string * Z) :=
  [("F", DIAMOND); ("F_", DIAMOND); ("ev", DIAMOND); ("ev_", DIAMOND);
   ("G", BOX); ("G_", BOX); ("alw", BOX); ("alw_", BOX);
   ("U", UNTIL); ("U_", UNTIL); ("until", UNTIL); ("until_", UNTIL);
   ("and", AND); ("or", OR); ("not", NOT); ("true", BOOL_TRUE); ("false", BOOL_FALSE);
   ("t", TIME); ("abs", ABS); ("param", PARAM_DECL); ("test", TEST); ("signal", SIGNAL_DECL)].

(** stl_scanner.lpp:62-69 and 148-152: blanks and comments are skipped.  A comment
    needs its newline: without one the mark is an ordinary character.  In a comment,
    the first argument is the text that starts with the mark. *)
Fixpoint skip (comment : option string) (s : string) : string :=
  match comment, s with
  | None, EmptyString => ""
  | None, String c s' =>
      if is_blank c then skip None s'
      else if code c =? 35 then skip (Some s) s'
      else s
  | Some o, EmptyString => o
  | Some o, String c s' => if code c =? 10 then skip None s' else skip comment s'
  end.

(** stl_scanner.lpp:142-145, after the opening quote: the contents, and the text after
    the closing quote. *)
Fixpoint quoted (s : string) : option (string * string) :=
  match s with
  | EmptyString => None
  | String c s' =>
      if code c =? 34 then Some ("", s')
      else if code c =? 92 then
        match s' with
        | EmptyString => None
        | String c' s'' =>
            if code c' =? 10 then None
            else match quoted s'' with Some (a, b) => Some (String c (String c' a), b) | None => None end
        end
      else match quoted s' with Some (a, b) => Some (String c a, b) | None => None end
  end.

(** stl_scanner.lpp:123-140, the three number patterns together, longest match. *)
Definition unsigned (s : string) : option (string * string) :=
  let '(a, b) := span is_digit s in
  match b with
  | String c b' =>
      if code c =? 46 then let '(f, r) := span is_digit b' in Some (a ++ String c f, r)
      else if String.eqb a "" then None else Some (a, b)
  | EmptyString => if String.eqb a "" then None else Some (a, b)
  end.
Definition number (s : string) : option (string * string) :=
  match s with
  | String c s' =>
      if (code c =? 43) || (code c =? 45) then
        match unsigned s' with Some (a, b) => Some (String c a, b) | None => None end
      else unsigned s
  | EmptyString => None
  end.

(** stl_scanner.lpp:71-92, the symbols, longest match. *)
Definition symbols : list (string * Z) :=
  [("<>_", DIAMOND); ("[]_", BOX); ("<>", DIAMOND); ("[]", BOX); ("=>", IMPLIES); ("->", IMPLIES);
   ("<=", LT); (">=", GT); (":=", ASSIGN);
   ("[", LINT); ("]", RINT); ("(", LPAREN); (")", RPAREN); ("<", LT); (">", GT); ("!", NOT);
   (",", COMMA); ("&", AND); ("|", OR); ("+", PLUS); ("-", MINUS); ("*", MULT)].
Fixpoint strip (p s : string) : option string :=
  match p, s with
  | EmptyString, _ => Some s
  | String a p', String b s' => if Ascii.eqb a b then strip p' s' else None
  | _, EmptyString => None
  end.
Fixpoint symbol (l : list (string * Z)) (s : string) : option (Z * string) :=
  match l with
  | nil => None
  | (p, k) :: l' => match strip p s with Some r => Some (k, r) | None => symbol l' s end
  end.

(** stl_parser.cpp:1727-1776.  A negative char is the end of the input. *)
Definition yytranslate (t : Z) : Z :=
  if t <=? 0 then 0
  else if t <=? 291 then nth (Z.to_nat t) translate_table 2
  else 2.
(** stl_scanner.lpp:157-159: a char is signed. *)
Definition char_token (c : ascii) : Z := if code c <? 128 then code c else code c - 256.

Section Parser.
Context {T : Type} {N : Num T}.

(** s_to_d, tools.h:19-29: the number a text denotes, if the whole text does.  A
    parameter of the model.  On failure the number is left at 0 (overflow is not
    modelled). *)
Variable s_to_d : string -> option T.

(** What an input can change: the driver, and the names in stl_test_map.  The contents of
    tests and the queue of trace tests are not modelled. *)
Definition parsed : Type := (driver T * list string)%type.

Definition in_names (k : string) (l : list string) : bool := existsb (String.eqb k) l.

(** stl_scanner.lpp:96-121: the token of a word. *)
Definition word_token (d : parsed) (w : string) : Z :=
  match find w reserved with
  | Some k => k
  | None =>
      match find w (d_formulas (fst d)) with
      | Some _ => PHI_ID
      | None =>
          match find w (d_params (fst d)) with
          | Some _ => PARAM_ID
          | None =>
              match find w (d_signals (fst d)) with
              | Some _ => SIGNAL_ID
              | None => if in_names w (snd d) then STL_TEST_ID else NEW_ID
              end
          end
      end
  end.

(** stl_parser.ypp:62-72, the semantic values. *)
Inductive sval :=
| VNone
| VStr (s : string)
| VTree (t : tree T)
| VInt (i : interval T)
| VBool (b : bool)
| VMap (m : list (string * T)).

(** One call of yylex: token, semantic value, remaining text.  A word is always longer
    than a symbol; a number is preferred to the sign it starts with. *)
Definition yylex (d : parsed) (s : string) : Z * sval * string :=
  let s := skip None s in
  match s with
  | EmptyString => (0, VNone, "")
  | String c s' =>
      if is_alpha c then
        let '(w, r) := span is_word s in
        (word_token d w, match find w reserved with Some _ => VNone | None => VStr w end, r)
      else match number s with
      | Some (n, r) => (CONSTANT, VStr n, r)
      | None =>
          match symbol symbols s with
          | Some (k, r) => (k, VNone, r)
          | None =>
              match (if code c =? 34 then quoted s' else None) with
              | Some (q, r) => (STRING, VStr q, r)
              | None => (char_token c, VNone, s')
              end
          end
      end
  end.

(** ** The automaton *)

(** Reading a table; outside its bounds the behaviour is undefined. *)
Definition tab (l : list Z) (i : Z) : res Z :=
  if i <? 0 then UB else match nth_error l (Z.to_nat i) with Some x => Ok x | None => UB end.

Inductive action := Shift (s : Z) | Reduce (r : Z) | Error.

(** stl_parser.cpp:731-735, yydefault. *)
Definition yydefault (s : Z) : res action :=
  r <- tab yydefact s ;; Ok (if r =? 0 then Error else Reduce r).

(** stl_parser.cpp:682-685: a state that does not look at the next token. *)
Definition blind (s : Z) : res bool := p <- tab yypact s ;; Ok (p =? yypact_ninf).

(** stl_parser.cpp:704-720: the action on a token. *)
Definition decide (s tok : Z) : res action :=
  p <- tab yypact s ;;
  let i := p + tok in
  if (i <? 0) || (yylast <? i) then yydefault s
  else
    c <- tab yycheck i ;;
    if negb (c =? tok) then yydefault s
    else
      a <- tab yytable i ;;
      Ok (if a <=? 0 then (if a =? yytable_ninf then Error else Reduce (- a)) else Shift a).

(** stl_parser.cpp:604-612. *)
Definition lr_goto (s sym : Z) : res Z :=
  p <- tab yypgoto (sym - yyntokens) ;;
  let i := p + s in
  if (0 <=? i) && (i <=? yylast) then
    c <- tab yycheck i ;;
    if c =? s then tab yytable i else tab yydefgoto (sym - yyntokens)
  else tab yydefgoto (sym - yyntokens).

(** ** The actions, stl_parser.ypp *)

(** constant_transducer(const string &), stl_atom.cpp:17-22. *)
Definition new_constant (s : string) : tree T :=
  match s_to_d s with
  | Some v => TConst new_node None None v
  | None => TConst new_node None (Some s) n0
  end.
(** interval(string, string), interval.cpp:16-21. *)
Definition new_bound (s : string) : bound T :=
  match s_to_d s with Some v => mkB v None | None => mkB n0 (Some s) end.
(** stl_atom(transducer *, string, transducer * ), transducer.h:520-529. *)
Definition new_comparator (s : string) : comparator := if String.eqb s "<" then LESSTHAN else GREATERTHAN.
Definition value_of (s : string) : T := match s_to_d s with Some v => v | None => n0 end.

Definition set_params_of (d : driver T) p := mkDrv (d_data d) p (d_signals d) (d_formulas d) (d_sem d) (d_ip d).
Definition set_signals_of (d : driver T) x := mkDrv (d_data d) (d_params d) x (d_formulas d) (d_sem d) (d_ip d).

(** The action of rule [r] on the values of its right-hand side.  [Ok None] is YYERROR; a
    value of the wrong kind is undefined behaviour (a wrong member of the union).  A signal whose
    number is negative is a reference to a column that does not exist: undefined. *)
Definition act (r : Z) (vs : list sval) (d : parsed) : res (option (sval * parsed)) :=
  let ret v := Ok (Some (v, d)) in
  let none := ret VNone in
  match r, vs with
  | 2, [VStr s] | 3, [VStr s] => ret (VStr s)                                   (* ypp:151-158 *)
  | 4, [VStr s] | 5, [VStr s] => ret (VTree (new_constant s))                   (* ypp:161-177 *)
  | 6, [VStr s; _; _; _] =>                                                     (* ypp:179-197 *)
      let i := match find s (d_signals (fst d)) with Some i => i | None => 0 end in
      if i =? 0 then Ok None
      else if i <? 0 then UB
      else ret (VTree (TSig new_node None s (Z.to_nat i)))
  | 7, [VTree t] | 8, [VTree t] => ret (VTree t)                                (* ypp:199-207 *)
  | 9, [_; VTree t; _] => ret (VTree t)                                         (* ypp:209-212 *)
  | 10, [VTree t] => ret (VTree t)                                              (* ypp:214-217 *)
  | 11, [_; _; VTree t; _] => ret (VTree (TAbs new_node t))                     (* ypp:218-225 *)
  | 12, [VTree t] => ret (VTree t)                                              (* ypp:227-230 *)
  | 13, [VTree l; _; VTree r] => ret (VTree (TMult new_node l r))               (* ypp:231-238 *)
  | 14, [VTree t] => ret (VTree t)                                              (* ypp:240-243 *)
  | 15, [VTree l; _; VTree r] => ret (VTree (TPlus new_node l r))               (* ypp:244-251 *)
  | 16, [VTree l; _; VTree r] => ret (VTree (TMinus new_node l r))              (* ypp:252-259 *)
  | 17, [VTree t] => ret (VTree t)                                              (* ypp:261-264 *)
  | 18, [VTree l; VStr o; VTree r] => ret (VTree (TAtom new_node l (new_comparator o) r)) (* ypp:267-274 *)
  | 19, [_] => ret (VStr "<")                                                   (* ypp:276 *)
  | 20, [_] => ret (VStr ">")                                                   (* ypp:277 *)
  | 21, [_; VStr a; _; VStr b; _] => ret (VInt (mkI (new_bound a) (new_bound b))) (* ypp:280-285 *)
  | 22, [_; VStr a; VStr b; _] => ret (VInt (mkI (new_bound a) (new_bound b)))  (* ypp:287-292 *)
  | 23, [VTree t] => ret (VTree t)                                              (* ypp:295-298 *)
  | 24, [_; VTree t] => ret (VTree (TNot new_node t))                           (* ypp:299-306 *)
  | 25, [VTree l; _; VTree r] => ret (VTree (TAnd new_node l r))                (* ypp:307-314 *)
  | 26, [VTree l; _; VTree r] => ret (VTree (TOr new_node l r))                 (* ypp:315-322 *)
  | 27, [VTree l; _; VTree r] => ret (VTree (TImp new_node l r))                (* ypp:323-330 *)
  | 28, [_; VInt i; VTree t] => ret (VTree (TEv new_node i t))                  (* ypp:331-338 *)
  | 29, [_; VInt i; VTree t] => ret (VTree (TAlw new_node i t))                 (* ypp:339-346 *)
  | 30, [VTree l; _; VInt i; VTree r] => ret (VTree (TUntil new_node l i r))    (* ypp:347-354 *)
  | 31, [_; VTree t; _] => ret (VTree t)                                        (* ypp:355-358 *)
  | 32, [VStr s] =>                                                             (* ypp:359-374 *)
      match find s (d_formulas (fst d)) with
      | None => Ok None
      | Some t => ret (VTree (clone t))
      end
  | 33, [VStr s; _; VTree t] =>                                                 (* ypp:378-382 *)
      Ok (Some (VNone, (d_with_formulas (fst d) (assign s t (d_formulas (fst d))), snd d)))
  | 34, [_; VStr _; _; VStr _] => none                                          (* ypp:384-389 *)
  | 35, [_; VStr _; _; VStr _; _; VStr _; _; VBool _] => none                   (* ypp:390-398 *)
  | 36, [_] => ret (VBool true)                                                 (* ypp:400-403 *)
  | 37, [_] => ret (VBool false)                                                (* ypp:404-407 *)
  | 38, [VStr k; _; VStr v] | 39, [VStr k; _; VStr v] =>                        (* ypp:411-427 *)
      Ok (Some (VNone, (set_params_of (fst d) (assign k (value_of v) (d_params (fst d))), snd d)))
  | 40, [_] | 41, [_; _; _] | 42, [_; _] => none                                (* ypp:429-432 *)
  | 43, [VStr k; _; VStr v] | 44, [VStr k; _; VStr v] => ret (VMap [(k, value_of v)]) (* ypp:436-456 *)
  | 45, [VMap m] => ret (VMap m)                                                (* ypp:459 *)
  | 46, [VMap m; _; VMap ((k, v) :: _)] => ret (VMap (assign k v m))            (* ypp:460-465 *)
  | 47, [] => ret (VMap [])                                                     (* ypp:467-470 *)
  | 48, [_; VMap m; _] => ret (VMap m)                                          (* ypp:471-474 *)
  | 49, [VStr x] =>                                                             (* ypp:478-483 *)
      Ok (Some (VNone, (set_signals_of (fst d)
                          (assign x (to_short (Z.of_nat (List.length (d_signals (fst d))) + 1)) (d_signals (fst d))), snd d)))
  | 50, [VStr _] => none                                                        (* ypp:484-487 *)
  | 51, [_] | 52, [_; _; _] | 53, [_; _] => none                                (* ypp:489-492 *)
  | 54, [VStr k; VMap _; _; VTree _; _; VStr _; _; VStr _; _; VBool _; _] =>    (* ypp:494-501 *)
      Ok (Some (VNone, (fst d, if in_names k (snd d) then snd d else k :: snd d)))
  | 55, [VStr _; VMap _] => none                                                (* ypp:502-511 *)
  | 56, [_; _] | 57, [_] | 58, [_; _; _; _] => none                             (* ypp:513-516 *)
  | 59, [_] | 60, [_] | 61, [_] | 62, [_] => none                               (* ypp:518-521 *)
  | 63, [_; _] | 64, [_; _] | 65, [_; _] => none                                (* ypp:522-524 *)
  | _, _ => UB
  end.

(** ** One step of Parser::parse, stl_parser.cpp:669-791

    The stack, top first; the lookahead token, translated; the rest of the text.  After an
    error every state is popped and 1 is returned: no state can shift the error token
    (stl_parser.cpp:1338-1372). *)
Record conf := mkC { c_stack : list (Z * sval); c_la : option (Z * sval); c_in : string; c_d : parsed }.
Inductive outcome := Next (c : conf) | Return (ok : bool) (d : parsed).

Definition reduce (c : conf) (r : Z) : res outcome :=
  n <- tab yyr2 r ;;
  lhs <- tab yyr1 r ;;
  let n := Z.to_nat n in
  match skipn n (c_stack c) with
  | nil => UB
  | (s, v) :: rest =>
      s' <- lr_goto s lhs ;;
      o <- act r (rev (map snd (firstn n (c_stack c)))) (c_d c) ;;
      Ok match o with
         | None => Return false (c_d c)
         | Some (x, d) => Next (mkC ((s', x) :: (s, v) :: rest) (c_la c) (c_in c) d)
         end
  end.

Definition pstep (c : conf) : res outcome :=
  match c_stack c with
  | nil => UB
  | (s, _) :: _ =>
      if s =? yyfinal then Ok (Return true (c_d c))
      else
        b <- blind s ;;
        if b : bool then
          a <- yydefault s ;;
          match a with Reduce r => reduce c r | _ => Ok (Return false (c_d c)) end
        else
          let '(tok, v, rest) :=
            match c_la c with
            | Some (tok, v) => (tok, v, c_in c)
            | None => let '(k, v, r) := yylex (c_d c) (c_in c) in (yytranslate k, v, r)
            end in
          let c' := mkC (c_stack c) (Some (tok, v)) rest (c_d c) in
          a <- decide s tok ;;
          match a with
          | Shift s' => Ok (Next (mkC ((s', v) :: c_stack c) None rest (c_d c)))
          | Reduce r => reduce c' r
          | Error => Ok (Return false (c_d c))
          end
  end.

Fixpoint parse_loop (fuel : nat) (c : conf) : res (bool * parsed) :=
  match fuel with
  | O => OutOfFuel
  | S k =>
      o <- pstep c ;;
      match o with
      | Next c' => parse_loop k c'
      | Return b d => Ok (b, d)
      end
  end.

(** stl_driver.cpp:148-173, parse_stream and parse_string: what is returned, and the driver after. *)
Definition parse_string (fuel : nat) (d : parsed) (s : string) : res (bool * parsed) :=
  parse_loop fuel (mkC [(0, VNone)] None s d).

(** ** Printing: transducer.h:271-274, 307-311, 344-348, 381-385, 417-423, 452-458, 487-495,
    542-555; signal_expr.h:61-65, 133-136, 172-177, 206-211, 236-241, 267-272; interval.cpp:39-53.
    [show] is operator<< of a double. *)
Variable show : T -> string.
Definition print_bound (b : bound T) : string := match bstr b with Some s => s | None => show (bnum b) end.
Definition print_interval (i : interval T) : string :=
  "[" ++ print_bound (ibegin i) ++ "," ++ print_bound (iend i) ++ "]".
Fixpoint print (f : fml T) : string :=
  match f with
  | FSig x _ => x ++ "[t]"
  | FConst p v => match p with Some s => s | None => show v end
  | FAbs c => "abs( " ++ print c ++ " )"
  | FPlus l r => print l ++ "+" ++ print r
  | FMinus l r => print l ++ "-" ++ print r
  | FMult l r => print l ++ "*" ++ print r
  | FAtom l o r => print l ++ match o with LESSTHAN => " < " | GREATERTHAN => " > " end ++ print r
  | FNot c => "not " ++ print c
  | FAnd l r => print l ++ " and " ++ print r
  | FOr l r => print l ++ " or " ++ print r
  | FImp l r => print l ++ " => " ++ print r
  | FEv i c => "ev_" ++ print_interval i ++ " (" ++ print c ++ ") "
  | FAlw i c => "alw_" ++ print_interval i ++ " (" ++ print c ++ ") "
  | FUntil l i r => " (" ++ print l ++ ") until_" ++ print_interval i ++ " (" ++ print r ++ ") "
  end.

(** ** tools.cpp:43-65, signal_map_to_string *)
Fixpoint put (l : list string) (k : nat) (x : string) : res (list string) :=
  match l, k with
  | nil, _ => UB
  | _ :: l', O => Ok (x :: l')
  | y :: l', S k' => l2 <- put l' k' x ;; Ok (y :: l2)
  end.
Fixpoint put_all (l : list string) (m : list (string * Z)) : res (list string) :=
  match m with
  | nil => Ok l
  | (x, i) :: m' => if i <? 1 then UB else l' <- put l (Z.to_nat (i - 1)) x ;; put_all l' m'
  end.
Fixpoint spaced (l : list string) : string :=
  match l with nil => "" | x :: l' => " " ++ x ++ spaced l' end.
Definition signal_map_to_string (m : list (string * Z)) : res string :=
  l <- put_all (repeat "" (List.length m)) m ;;
  match l with nil => UB | x :: l' => Ok (x ++ spaced l') end.

(** ** tools.cpp:106-130, read_trace *)

(** operator>> for a double on the rest of a line: skip blanks, then the longest text that
    looks like a number; [conv] is its value.  What is left, and the number unless the
    extraction fails.  The end of the stream is reached if nothing is left. *)
Definition is_space (c : ascii) : bool := (code c =? 32) || ((9 <=? code c) && (code c <=? 13)).
Fixpoint floats (dot expo digit : bool) (fresh : bool) (s : string) : string * string :=
  match s with
  | EmptyString => ("", "")
  | String c s' =>
      let take d e g f := let '(a, b) := floats d e g f s' in (String c a, b) in
      if is_digit c then take dot expo true false
      else if (code c =? 46) && negb dot && negb expo then take true expo digit false
      else if ((code c =? 101) || (code c =? 69)) && negb expo && digit then take dot true digit true
      else if ((code c =? 43) || (code c =? 45)) && fresh then take dot expo digit false
      else ("", s)
  end.
Definition extract (conv : string -> option T) (s : string) : option T * string :=
  let '(_, s) := span is_space s in
  let '(a, r) := floats false false false true s in (conv a, r).

(** The loop over one line.  The variable is declared in the loop and not initialised: an extraction
    that starts at the end of the line, or after a failure, leaves it as it is, and its value is
    stored.  [junk] stands for that value.  A failed extraction does not reach the end unless nothing is left,
    and after it the stream stays as it is. *)
Variable junk : T.
Fixpoint read_fields (conv : string -> option T) (fuel : nat) (failed : bool) (s : string) : res (list T) :=
  match fuel with
  | O => OutOfFuel
  | S k =>
      if failed then l <- read_fields conv k true s ;; Ok (junk :: l)
      else if String.eqb (snd (span is_space s)) "" then Ok [junk]
      else match extract conv s with
           | (Some v, "") => Ok [v]
           | (Some v, r) => l <- read_fields conv k false r ;; Ok (v :: l)
           | (None, "") => Ok [n0]
           | (None, r) => l <- read_fields conv k true r ;; Ok (n0 :: l)
           end
  end.

(** getline: the text up to a newline and what follows; [None] if the end comes first. *)
Fixpoint getline (s : string) : option (string * string) :=
  match s with
  | EmptyString => None
  | String c s' =>
      if code c =? 10 then Some ("", s')
      else match getline s' with Some (a, b) => Some (String c a, b) | None => None end
  end.
Fixpoint read_lines (conv : string -> option T) (fuel : nat) (s : string) (data : list (list T)) : res (list (list T)) :=
  match fuel with
  | O => OutOfFuel
  | S k =>
      match getline s with
      | None => Ok data
      | Some (line, rest) =>
          row <- read_fields conv k false line ;;
          read_lines conv k rest (data ++ [row])%list
      end
  end.
Definition read_trace (conv : string -> option T) (fuel : nat) (file : option string) (data : list (list T)) : res (bool * list (list T)) :=
  match file with
  | None => Ok (false, data)
  | Some s => d <- read_lines conv fuel s data ;; Ok (true, d)
  end.
End Parser.
Arguments VNone {T}.
Arguments VStr {T} s.
Arguments VTree {T} t.
Arguments VInt {T} i.
Arguments VBool {T} b.
Arguments VMap {T} m.
