(** Specifications for the parser, independent of the automaton. *)
From Coq Require Import List Bool String Ascii ZArith.
From Verif Require Import Num Base Signal Robust Transducer Driver.
Import ListNotations.
Local Open Scope Z_scope.

(** Signals are numbered 1, 2, 3, ... and no name occurs twice. *)
Definition in_order (m : list (string * Z)) : Prop :=
  map snd m = map Z.of_nat (seq 1 (List.length m)) /\ NoDup (map fst m).

(** Two drivers differ at most in parameters, signals and formulas; signals keep their numbers, and formulas
    their trees. *)
Definition extends {T : Type} (d d' : driver T) : Prop :=
  d_data d' = d_data d /\ d_sem d' = d_sem d /\ d_ip d' = d_ip d /\
  (exists l, d_signals d' = d_signals d ++ l)%list /\
  (forall k, find k (d_params d) <> None -> find k (d_params d') <> None) /\
  (forall phi t, find phi (d_formulas d) = Some t -> find phi (d_formulas d') = Some t).

(** ** Tokens *)
Inductive binop := And | Or | Implies.
Inductive tok :=
| KLParen | KRParen | KLBrack | KRBrack | KTime | KComma
| KLess | KGreater | KPlus | KMinus | KTimes | KAbs
| KNot | KBin (o : binop) | KAlw | KEv | KUntil
| KNumber (s : string) | KParam (s : string) | KPhi (s : string) | KSignal (s : string).

Section Grammar.
Context {T : Type} {N : Num T}.
Variable value : string -> option T.          (* the number a text denotes *)
Variable column : string -> option nat.       (* the column of a signal *)
Variable meaning : string -> option (fml T).  (* the formula of a name *)

(** ** Signal expressions

    A sum is one operand followed by any number of +, - or * with their right operands: all three
    have the same precedence and group to the left.  abs can only come first. *)
Definition constant (s : string) : fml T :=
  match value s with Some v => FConst None v | None => FConst (Some s) n0 end.
Inductive operand : list tok -> fml T -> Prop :=
| O_signal : forall x i, column x = Some i -> operand [KSignal x; KLBrack; KTime; KRBrack] (FSig x i)
| O_number : forall s, operand [KNumber s] (constant s)
| O_param : forall s, operand [KParam s] (constant s)
| O_paren : forall ts f, sum ts f -> operand (KLParen :: ts ++ [KRParen]) f
with sum : list tok -> fml T -> Prop :=
| S_operand : forall ts f, operand ts f -> sum ts f
| S_abs : forall ts f, sum ts f -> sum (KAbs :: KLParen :: ts ++ [KRParen]) (FAbs f)
| S_plus : forall ts l us r, sum ts l -> operand us r -> sum (ts ++ KPlus :: us) (FPlus l r)
| S_minus : forall ts l us r, sum ts l -> operand us r -> sum (ts ++ KMinus :: us) (FMinus l r)
| S_times : forall ts l us r, sum ts l -> operand us r -> sum (ts ++ KTimes :: us) (FMult l r).

Definition side (s : string) : bound T :=
  match value s with Some v => mkB v None | None => mkB n0 (Some s) end.
Inductive limit : tok -> bound T -> Prop :=
| L_number : forall s, limit (KNumber s) (side s)
| L_param : forall s, limit (KParam s) (side s).
Inductive range : list tok -> interval T -> Prop :=
| R_comma : forall a b x y, limit a x -> limit b y -> range [KLBrack; a; KComma; b; KRBrack] (mkI x y)
| R_blank : forall a b x y, limit a x -> limit b y -> range [KLBrack; a; b; KRBrack] (mkI x y).

(** ** Formulas, for a choice of precedences

    [reach o] is how strongly an operator pulls the formula on its left; [hold o] how strongly it
    holds the one on its right.  A formula has two numbers: the weakest pull among the operators
    at its top, and the weakest hold along its right edge.  An operator can take a formula
    as its left side if its pull does not exceed the hold of that formula's right edge (otherwise
    a part of the formula would be taken), and as its right side if its own hold is less than all
    pulls in it. *)
Record precedence := mkP { reach : binop -> nat; hold : binop -> nat; hold_not : nat; reach_until : nat; hold_time : nat }.
Variable L : precedence.
Definition closed : nat := 100.   (* more than any precedence *)

Definition join (o : binop) (l r : fml T) : fml T :=
  match o with And => FAnd l r | Or => FOr l r | Implies => FImp l r end.

Inductive formula : list tok -> fml T -> nat -> nat -> Prop :=
| F_less : forall ts us l r, sum ts l -> sum us r -> formula (ts ++ KLess :: us) (FAtom l LESSTHAN r) closed closed
| F_greater : forall ts us l r, sum ts l -> sum us r -> formula (ts ++ KGreater :: us) (FAtom l GREATERTHAN r) closed closed
| F_name : forall s f, meaning s = Some f -> formula [KPhi s] f closed closed
| F_paren : forall ts f p q, formula ts f p q -> formula (KLParen :: ts ++ [KRParen]) f closed closed
| F_not : forall ts f p q, formula ts f p q -> (hold_not L < p)%nat ->
    formula (KNot :: ts) (FNot f) closed (Nat.min (hold_not L) q)
| F_ev : forall is i ts f p q, range is i -> formula ts f p q -> (hold_time L < p)%nat ->
    formula (KEv :: is ++ ts) (FEv i f) closed (Nat.min (hold_time L) q)
| F_alw : forall is i ts f p q, range is i -> formula ts f p q -> (hold_time L < p)%nat ->
    formula (KAlw :: is ++ ts) (FAlw i f) closed (Nat.min (hold_time L) q)
| F_bin : forall o ts l p q us r p' q', formula ts l p q -> formula us r p' q' ->
    (reach L o <= q)%nat -> (hold L o < p')%nat ->
    formula (ts ++ KBin o :: us) (join o l r) (Nat.min p (reach L o)) (Nat.min (hold L o) q')
| F_until : forall ts l p q is i us r p' q', formula ts l p q -> range is i -> formula us r p' q' ->
    (reach_until L <= q)%nat -> (hold_time L < p')%nat ->
    formula (ts ++ KUntil :: is ++ us) (FUntil l i r) (Nat.min p (reach_until L)) (Nat.min (hold_time L) q').
End Grammar.

(** The usual precedences: not, until, ev and alw bind tightest, then and, or, =>; equal operators group to the
    left, => to the right. *)
Definition usual : precedence :=
  mkP (fun o => match o with And => 3 | Or => 2 | Implies => 1 end)%nat
      (fun o => match o with And => 3 | Or => 2 | Implies => 0 end)%nat 6 6 6.

(** The precedences of this parser: and, or and => hold their right side equally weakly, but pull
    with increasing strength. *)
Definition actual : precedence :=
  mkP (fun o => match o with And => 1 | Or => 2 | Implies => 4 end)%nat (fun _ => 1%nat) 3 6 6.

(** ** Texts *)
Local Open Scope string_scope.
Definition one_of (l : string) (c : ascii) : bool := existsb (Ascii.eqb c) (list_ascii_of_string l).
Definition letter := one_of "ABCDEFGHIJKLMNOPQRSTUVWXYZabcdefghijklmnopqrstuvwxyz".
Definition digit := one_of "0123456789".
Definition wordly (c : ascii) : bool := letter c || digit c || one_of "_" c.
Definition tab_char := ascii_of_nat 9.
Definition return_char := ascii_of_nat 13.
Definition newline_char := ascii_of_nat 10.
Definition blank (c : ascii) : bool := one_of (String tab_char (String return_char (String newline_char " "))) c.
Definition all (p : ascii -> bool) (s : string) : Prop := forallb p (list_ascii_of_string s) = true.

Definition identifier (w : string) : Prop := exists c r, w = String c r /\ letter c = true /\ all wordly r.
Inductive magnitude_text : string -> Prop :=
| M_int : forall a, a <> "" -> all digit a -> magnitude_text a
| M_frac : forall a f, all digit a -> all digit f -> magnitude_text (a ++ "." ++ f).
Definition numeral (s : string) : Prop :=
  magnitude_text s \/ (exists u, magnitude_text u /\ (s = "+" ++ u \/ s = "-" ++ u)).

(** Blanks and comments. *)
Inductive gap : string -> Prop :=
| G_nil : gap ""
| G_blank : forall c g, blank c = true -> gap g -> gap (String c g)
| G_comment : forall l g, all (fun c => negb (Ascii.eqb c newline_char)) l -> gap g -> gap ("#" ++ l ++ String newline_char g).

Definition keywords : list string :=
  ["F"; "F_"; "ev"; "ev_"; "G"; "G_"; "alw"; "alw_"; "U"; "U_"; "until"; "until_";
   "and"; "or"; "not"; "true"; "false"; "t"; "abs"; "param"; "test"; "signal"].
Definition fixed : list (tok * string) :=
  [(KLParen, "("); (KRParen, ")"); (KLBrack, "["); (KRBrack, "]"); (KTime, "t"); (KComma, ",");
   (KLess, "<"); (KLess, "<="); (KGreater, ">"); (KGreater, ">="); (KPlus, "+"); (KMinus, "-"); (KTimes, "*"); (KAbs, "abs");
   (KNot, "not"); (KNot, "!"); (KBin And, "and"); (KBin And, "&"); (KBin Or, "or"); (KBin Or, "|");
   (KBin Implies, "=>"); (KBin Implies, "->");
   (KAlw, "alw_"); (KAlw, "alw"); (KAlw, "G_"); (KAlw, "G"); (KAlw, "[]_"); (KAlw, "[]");
   (KEv, "ev_"); (KEv, "ev"); (KEv, "F_"); (KEv, "F"); (KEv, "<>_"); (KEv, "<>");
   (KUntil, "until_"); (KUntil, "until"); (KUntil, "U_"); (KUntil, "U")].

Section Texts.
Context {T : Type}.
Variable d : driver T.

Inductive spelling : tok -> string -> Prop :=
| Sp_fixed : forall k w, In (k, w) fixed -> spelling k w
| Sp_number : forall w, numeral w -> spelling (KNumber w) w
| Sp_phi : forall w, identifier w -> ~ In w keywords -> find w (d_formulas d) <> None -> spelling (KPhi w) w
| Sp_param : forall w, identifier w -> ~ In w keywords -> find w (d_formulas d) = None ->
    find w (d_params d) <> None -> spelling (KParam w) w
| Sp_signal : forall w, identifier w -> ~ In w keywords -> find w (d_formulas d) = None ->
    find w (d_params d) = None -> find w (d_signals d) <> None -> spelling (KSignal w) w.

(** A character that may not follow a token directly. *)
Definition glues (w : string) (c : ascii) : bool :=
  if String.eqb w "<" then one_of "=>" c
  else if String.eqb w ">" then one_of "=" c
  else if String.eqb w "[" then one_of "]" c
  else if String.eqb w "+" then one_of ".0123456789" c
  else if String.eqb w "-" then one_of ">.0123456789" c
  else if String.eqb w "<>" || String.eqb w "[]" then one_of "_" c
  else match w with
       | String a _ => if letter a || digit a || one_of "+-." a then wordly c || one_of "." c else false
       | EmptyString => false
       end.
Definition follows (w r : string) : Prop := match r with EmptyString => True | String c _ => glues w c = false end.

Inductive text : list tok -> string -> Prop :=
| X_end : forall g, gap g -> text [] g
| X_tok : forall g k w ts r, gap g -> spelling k w -> text ts r -> follows w r -> text (k :: ts) (g ++ w ++ r).

(** A name that means nothing yet. *)
Definition fresh (tests : list string) (x : string) : Prop :=
  identifier x /\ ~ In x keywords /\ find x (d_formulas d) = None /\ find x (d_params d) = None /\
  find x (d_signals d) = None /\ ~ In x tests.
End Texts.

(** ** Formulas that keep their meaning without parentheses

    The printer writes no parentheses around the operands of +, -, *, not, and, or, =>.  These are the
    formulas for which none are needed, and whose names and constants can be read back. *)
Section Printable.
Context {T : Type} {N : Num T}.
Variable value : string -> option T.
Variable column : string -> option nat.
Variable show : T -> string.
Variable d : driver T.
Variable L : precedence.

Inductive leaf : fml T -> Prop :=
| Lf_signal : forall x i, spelling d (KSignal x) x -> column x = Some i -> leaf (FSig x i)
| Lf_number : forall v, numeral (show v) -> value (show v) = Some v -> leaf (FConst None v)
| Lf_param : forall s, spelling d (KParam s) s -> value s = None -> leaf (FConst (Some s) n0).
(** A number without a sign cannot follow + or -: the scanner takes the sign as part of it. *)
Definition unsigned_number (f : fml T) : Prop :=
  match f with FConst None v => match show v with String c _ => digit c || one_of "." c = true | EmptyString => False end | _ => False end.
Inductive plain_sum : fml T -> Prop :=
| Ps_leaf : forall f, leaf f -> plain_sum f
| Ps_abs : forall f, plain_sum f -> plain_sum (FAbs f)
| Ps_plus : forall l r, plain_sum l -> leaf r -> ~ unsigned_number r -> plain_sum (FPlus l r)
| Ps_minus : forall l r, plain_sum l -> leaf r -> ~ unsigned_number r -> plain_sum (FMinus l r)
| Ps_times : forall l r, plain_sum l -> leaf r -> plain_sum (FMult l r).

Inductive plain_bound : bound T -> Prop :=
| Pb_number : forall v, numeral (show v) -> value (show v) = Some v -> plain_bound (mkB v None)
| Pb_param : forall s, spelling d (KParam s) s -> value s = None -> plain_bound (mkB n0 (Some s)).
Definition plain_interval (i : interval T) : Prop := plain_bound (ibegin i) /\ plain_bound (iend i).

Inductive printable : fml T -> nat -> nat -> Prop :=
| P_atom : forall l o r, plain_sum l -> plain_sum r -> printable (FAtom l o r) closed closed
| P_not : forall f p q, printable f p q -> (hold_not L < p)%nat -> printable (FNot f) closed (Nat.min (hold_not L) q)
| P_bin : forall o l p q r p' q', printable l p q -> printable r p' q' -> (reach L o <= q)%nat -> (hold L o < p')%nat ->
    printable (join o l r) (Nat.min p (reach L o)) (Nat.min (hold L o) q')
| P_ev : forall i f p q, plain_interval i -> printable f p q -> (hold_time L < closed)%nat ->
    printable (FEv i f) closed (Nat.min (hold_time L) closed)
| P_alw : forall i f p q, plain_interval i -> printable f p q -> (hold_time L < closed)%nat ->
    printable (FAlw i f) closed (Nat.min (hold_time L) closed)
| P_until : forall l p q i r p' q', plain_interval i -> printable l p q -> printable r p' q' ->
    (reach_until L <= closed)%nat -> (hold_time L < closed)%nat ->
    printable (FUntil l i r) (Nat.min closed (reach_until L)) (Nat.min (hold_time L) closed).
End Printable.

(** ** Declarations of signals *)

(** A name is added at the end unless it is there. *)
Definition declare (m : list (string * Z)) (x : string) : list (string * Z) :=
  if existsb (String.eqb x) (map fst m) then m else m ++ [(x, Z.of_nat (List.length m) + 1)].

(** The text of a declaration after the word signal: names separated by commas. *)
Inductive names_text : list string -> string -> Prop :=
| Nt_one : forall g x g', gap g -> identifier x -> gap g' -> names_text [x] (g ++ x ++ g')
| Nt_more : forall g x g' l r, gap g -> identifier x -> gap g' -> names_text l r -> names_text (x :: l) (g ++ x ++ g' ++ "," ++ r).

(** Names that can be declared: not a keyword, and not in use for something else. *)
Definition declarable {T : Type} (d : driver T) (tests : list string) (x : string) : Prop :=
  ~ In x keywords /\ find x (d_formulas d) = None /\ find x (d_params d) = None /\ (find x (d_signals d) = None -> ~ In x tests).

(** ** Trace files *)
Section Traces.
Context {T : Type}.
Variable value : string -> option T.

(** What separates fields: blanks that do not end the line. *)
Definition spaces (s : string) : Prop := all (fun c => one_of (String tab_char (String return_char (String (ascii_of_nat 11) (String (ascii_of_nat 12) " ")))) c) s.

(** A number: sign, digits with an optional point, exponent. *)
Definition sign_text (s : string) : Prop := s = "" \/ s = "+" \/ s = "-".
Inductive mantissa : string -> Prop :=
| Mt_int : forall a, a <> "" -> all digit a -> mantissa a
| Mt_frac : forall a f, a ++ f <> "" -> all digit a -> all digit f -> mantissa (a ++ "." ++ f).
Inductive exponent : string -> Prop :=
| Ex_none : exponent ""
| Ex_some : forall e s a, e = "e" \/ e = "E" -> sign_text s -> a <> "" -> all digit a -> exponent (e ++ s ++ a).
Definition field (w : string) (v : T) : Prop :=
  (exists s m e, sign_text s /\ mantissa m /\ exponent e /\ w = s ++ m ++ e) /\ value w = Some v.

Inductive row_text : list T -> string -> Prop :=
| Rw_one : forall b w v, spaces b -> field w v -> row_text [v] (b ++ w)
| Rw_more : forall b w v b' l r, spaces b -> field w v -> spaces b' -> b' <> "" -> row_text l r -> row_text (v :: l) (b ++ w ++ b' ++ r).
Inductive file_text : list (list T) -> string -> Prop :=
| Fl_nil : file_text [] ""
| Fl_line : forall row line rows rest, row_text row line -> file_text rows rest -> file_text (row :: rows) (line ++ String newline_char rest).
Definition one_line (s : string) : Prop := all (fun c => negb (Ascii.eqb c newline_char)) s.
End Traces.
