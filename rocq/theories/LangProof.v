(** Texts that the parser accepts are texts of the language, and have the effect the language gives them. *)
From Coq Require Import List Bool String Ascii ZArith Lia.
From Verif Require Import Num Base Signal Robust Transducer TreeProof Driver Tables Parser Automaton ParserProof ParserSpec ParserTotal PrecProof LexProof LangSpec LangLex.
Import ListNotations.
Local Open Scope Z_scope.

(** How strongly a symbol holds the formula after it. *)
Definition holds (sym : Z) : nat :=
  if sym =? 8 then 3%nat else if (sym =? 10) || (sym =? 11) || (sym =? 12) then 1%nat else if sym =? 52 then 6%nat else 0%nat.

(** What comes after the top of the stack: a symbol that is on the stack, a token that was read, or a token that was not read yet. *)
Inductive look := Pushed (k : Z) | Ahead (k : Z) | Unread.
Definition fits (b : Z) (q : nat) (nx : look) : Prop :=
  match nx with
  | Pushed k => (pull k <= q)%nat /\ (0 < pull k -> holds b < pull k)%nat
  | Ahead k => (pull k <= q)%nat
  | Unread => (6 <= q)%nat
  end.

Section Lang.
Context {T : Type} {N : Num T}.
Variable value : string -> option T.
Notation sval := (sval (T := T)).
Notation conf := (conf (T := T)).
Notation parsed := (parsed (T := T)).
Notation item := (item (T := T)).
Notation operand d := (operand value (column d)).
Notation sum d := (sum value (column d)).
Notation range := (range value).
Notation formula d := (formula value (column d) (meaning d) actual).

Variable d0 : parsed.

(** The words of a symbol that changes nothing, and its value. *)
Definition phrase (X b : Z) (nx : look) (d : parsed) (ws : list word) (v : sval) : Prop :=
  if X =? 42 then exists k x, ws = [W k] /\ v = VStr x /\ (k = KNumber x \/ k = KParam x)
  else if (X =? 43) || (X =? 44) || (X =? 45) then exists ts t, ws = map W ts /\ v = VTree t /\ operand d ts (skel t)
  else if (X =? 46) || (X =? 47) || (X =? 48) || (X =? 49) then exists ts t, ws = map W ts /\ v = VTree t /\ sum d ts (skel t)
  else if X =? 50 then exists ts t, ws = map W ts /\ v = VTree t /\ formula d ts (skel t) closed closed
  else if X =? 51 then (ws = [W KLess] /\ v = VStr "<"%string) \/ (ws = [W KGreater] /\ v = VStr ">"%string)
  else if X =? 52 then exists ts i, ws = map W ts /\ v = VInt i /\ range ts i
  else if X =? 53 then exists ts t p q, ws = map W ts /\ v = VTree t /\ formula d ts (skel t) p q /\ (holds b < p)%nat /\ fits b q nx
  else if X =? 56 then exists k, ws = [k] /\ bool_word k
  else if X =? 60 then exists k x, setting ws k x
  else if X =? 61 then locals ws
  else if X =? 62 then local_part ws
  else False.

(** What a symbol on the stack stands for, above a symbol [b]: [s] is what was known when its first word was read,
    [d] the driver before it, [l] its words, [v] its value; [s'] is what is known when the word after it is read and
    [d'] the driver after it. *)
Definition means (X b : Z) (nx : look) (s d : parsed) (l : list item) (v : sval) (s' d' : parsed) : Prop :=
  if X =? 0 then l = [] /\ s' = s /\ d' = d
  else if X <? 41 then exists w, l = [(s, w)] /\ wnum w = X /\ wval w = v /\ s' = d /\ d' = d
  else if X =? 54 then exists x ts t p q, l = (s, KNew x) :: read_in d (KDefine :: map W ts) /\ formula d ts (skel t) p q /\ s' = d /\ d' = with_formula d x t
  else if X =? 55 then exists h, l = (s, KTestWord) :: read_in d h /\ test_head h /\ s' = d /\ d' = d
  else if X =? 59 then exists l', l = (s, KParamWord) :: l' /\ params value d l' d' /\ s' = d'
  else if X =? 65 then exists l', l = (s, KSignalWord) :: l' /\ signals d l' d' /\ s' = d'
  else if X =? 68 then exists h l', l = (s, KTestWord) :: read_in d (h ++ [KOpen]) ++ l' ++ [(d', KClose)] /\ test_head h /\ tests value d l' d' /\ s' = d'
  else if X =? 69 then s = d0 /\ d = d0 /\ program value d0 l s' d'
  else s = d /\ s' = d' /\
    (if X =? 57 then exists ws k x, l = read_in d ws /\ setting ws k x /\ d' = with_param d k (number_of value x)
     else if X =? 58 then params value d l d'
     else if X =? 63 then exists k, l = [(d, k)] /\ signal_name d k d'
     else if X =? 64 then signals d l d'
     else if X =? 66 then test value d l d'
     else if X =? 67 then tests value d l d'
     else d' = d /\ exists ws, l = read_in d ws /\ phrase X b nx d ws v).

Inductive shape : list (Z * sval) -> look -> list item -> parsed -> parsed -> Prop :=
| Sh_base : forall v nx, shape [(0, v)] nx [] d0 d0
| Sh_push : forall x v p w st nx l1 s1 d1 l2 s d, shape ((p, w) :: st) (Pushed (stos x)) l1 s1 d1 -> In (p, x) edges ->
    means (stos x) (stos p) nx s1 d1 l2 v s d -> shape ((x, v) :: (p, w) :: st) nx (l1 ++ l2) s d.

(** ** The look only matters for formulas *)
Lemma means_nx : forall X b nx nx' s d l v s' d', X <> 53 -> means X b nx s d l v s' d' -> means X b nx' s d l v s' d'.
Proof.
  intros X b nx nx' s d l v s' d' NE H. unfold means in *. unfold phrase in *. apply Z.eqb_neq in NE. rewrite NE in *. exact H.
Qed.
Lemma shape_nx : forall st nx nx' l s d, stos (top st) <> 53 -> shape st nx l s d -> shape st nx' l s d.
Proof.
  intros st nx nx' l s d NE H. destruct H as [v nx|x v p w st nx l1 s1 d1 l2 s d H ED M]; [constructor|].
  cbn [top] in NE. eapply Sh_push; [exact H|exact ED|]. eapply means_nx; [exact NE|exact M].
Qed.
Lemma fits_weaken : forall b q k, fits b q Unread -> fits b q (Ahead k).
Proof.
  intros b q k H. cbn [fits] in *. assert (pull k <= 6)%nat; [|lia]. unfold pull.
  repeat match goal with |- context [if ?c then _ else _] => destruct c end; lia.
Qed.
Lemma shape_ahead : forall st k l s d, shape st Unread l s d -> shape st (Ahead k) l s d.
Proof.
  intros st k l s d H. inversion H as [v nx|x v p w st' nx l1 s1 d1 l2 s' d' H' ED M]; subst; [constructor|]. eapply Sh_push; [exact H'|exact ED|].
  destruct (Z.eq_dec (stos x) 53) as [E|NE]; [|eapply means_nx; [exact NE|exact M]]. rewrite E in M |- *.
  destruct M as (A & B & C & ws & D & ts & t & p0 & q & E1 & E2 & E3 & E4 & E5).
  repeat (split; [assumption|]). exists ws. split; auto. exists ts, t, p0, q. repeat (split; [assumption|]). apply fits_weaken; auto.
Qed.

(** ** Known before and after *)
Lemma means_settled : forall X b nx s d l v s' d', X <> 0 -> X <> 54 -> X <> 69 -> means X b nx s d l v s' d' -> s' = d'.
Proof.
  intros X b nx s d l v s' d' N0 N1 N2 M. unfold means in M. apply Z.eqb_neq in N0, N1, N2. rewrite N0, N1, N2 in M.
  repeat match type of M with (if ?c then _ else _) => destruct c end;
    repeat match type of M with exists _, _ => destruct M as [? M] end; intuition congruence.
Qed.
Lemma shape_linked : forall st nx l s d, shape st nx l s d -> linked st.
Proof.
  induction 1; [reflexivity|]. cbn [linked]. split; auto.
Qed.
Lemma shape_settled : forall st nx l s d, shape st nx l s d -> top st <> yyfinal -> stos (top st) <> 54 -> stos (top st) <> 69 -> s = d.
Proof.
  intros st nx l s d H F A B. destruct H as [v nx|x v p w st nx l1 s1 d1 l2 s d H ED M]; [reflexivity|]. cbn [top] in *.
  eapply means_settled; [| | |exact M]; auto.
  assert (C : forallb (fun e => negb (stos (snd e) =? 0) || (snd e =? yyfinal)) edges = true) by (vm_compute; reflexivity).
  rewrite forallb_forall in C. specialize (C _ ED). cbn [snd] in C. apply orb_prop in C. destruct C as [C|C].
  - apply negb_true_iff, Z.eqb_neq in C. exact C.
  - apply Z.eqb_eq in C. contradiction.
Qed.
Lemma shape_zero : forall st nx l s d, shape st nx l s d -> top st = 0 -> l = [] /\ s = d0 /\ d = d0.
Proof.
  intros st nx l s d H E. destruct H as [v nx|x v p w st nx l1 s1 d1 l2 s d H ED M]; [auto|]. cbn [top] in E. subst x.
  apply edge_target in ED. tauto.
Qed.

(** ** The right-hand side of a rule *)
Inductive seg (b : Z) (s1 d1 : parsed) : list Z -> look -> list item -> list sval -> parsed -> parsed -> Prop :=
| seg_nil : forall nx, seg b s1 d1 [] nx [] [] s1 d1
| seg_cons : forall x syms nx l1 l2 v vs s d s' d', seg b s1 d1 syms (Pushed x) l1 vs s d -> means x (hd b syms) nx s d l2 v s' d' ->
    seg b s1 d1 (x :: syms) nx (l1 ++ l2) (v :: vs) s' d'.

Lemma peel : forall syms lhs st nx l s d, shape st nx l s d -> spells edges syms lhs (top st) = true ->
  exists b v rest s' nx' l1 l2 s1 d1, skipn (List.length syms) st = (b, v) :: rest /\ shape ((b, v) :: rest) nx' l1 s1 d1 /\ l = l1 ++ l2 /\
    seg (stos b) s1 d1 syms nx l2 (map snd (firstn (List.length syms) st)) s d /\
    lr_goto b lhs = Ok s' /\ In (b, s') edges /\ stos s' = lhs.
Proof.
  induction syms as [|x syms IH]; intros lhs st nx l s d H S.
  - assert (L := shape_linked _ _ _ _ _ H). destruct st as [|[b v] rest]; [destruct L|]. cbn [spells top] in S.
    destruct (lr_goto b lhs) as [s'| | | |] eqn:G; try discriminate. apply andb_prop in S. destruct S as [A B].
    apply mem_edge_in in A. apply Z.eqb_eq in B. exists b, v, rest, s', nx, l, [], s, d. cbn [skipn List.length firstn map]. rewrite app_nil_r.
    repeat match goal with |- _ /\ _ => split end; auto. constructor.
  - inversion H as [v nx0|x0 v p w st' nx0 l1 s1 d1 l2 s' d' H' ED M]; subst; cbn [spells top] in S;
      apply andb_prop in S; destruct S as [S P]; apply andb_prop in S; destruct S as [A B];
      apply Z.eqb_eq in A; apply negb_true_iff, Z.eqb_neq in B; [congruence|].
    rewrite forallb_forall in P. specialize (P p (in_preds _ _ _ ED)).
    destruct (IH lhs ((p, w) :: st') _ _ _ _ H' P) as (b & v1 & rest & s' & nx' & la & lb & sa & da & X & Y & Z0 & U & V & V' & V'').
    exists b, v1, rest, s', nx', la, (lb ++ l2), sa, da. cbn [List.length].
    repeat match goal with |- _ /\ _ => split end; auto.
    + rewrite Z0, app_assoc. reflexivity.
    + change (firstn (S (List.length syms)) ((x0, v) :: (p, w) :: st')) with ((x0, v) :: firstn (List.length syms) ((p, w) :: st')).
      cbn [map snd]. rewrite A in *. econstructor; [exact U|].
      replace (hd (stos b) syms) with (stos p); [exact M|]. destruct syms as [|y syms].
      * cbn [skipn] in X. injection X as -> _ _. reflexivity.
      * cbn [hd]. cbn [spells] in P. apply andb_prop in P. destruct P as [P _]. apply andb_prop in P. destruct P as [P _]. now apply Z.eqb_eq in P.
Qed.

(** ** Reductions *)
Definition limit_of (r : Z) : nat := if r =? 24 then 3%nat else if (r =? 25) || (r =? 26) || (r =? 27) then 1%nat else 6%nat.
Definition allowed (r : Z) (nx : look) : Prop :=
  match nx with Ahead k => (pull k <= limit_of r)%nat | Unread => (6 <= limit_of r)%nat | Pushed _ => False end.
Definition settles (sym : Z) : bool := negb (existsb (Z.eqb sym) [54; 55; 59; 65; 68; 69]).
Definition changes (r : Z) : bool := existsb (Z.eqb r) [38; 39; 49; 54].

Lemma pull_small : forall k, (pull k <= 6)%nat.
Proof. intro k. unfold pull. repeat match goal with |- context [if ?c then _ else _] => destruct c end; lia. Qed.
Lemma holds_small : forall k, (holds k <= 6)%nat.
Proof. intro k. unfold holds. repeat match goal with |- context [if ?c then _ else _] => destruct c end; lia. Qed.
Lemma fits_min : forall b b' r q nx, fits b q nx -> allowed r nx -> fits b' (Nat.min (limit_of r) q) nx.
Proof. intros b b' r q [k|k|] F A; cbn [fits allowed] in *; [destruct A|lia|lia]. Qed.
Lemma fits_closed : forall b r nx, allowed r nx -> fits b closed nx.
Proof. intros b r [k|k|] A; cbn [fits allowed] in *; unfold closed; [destruct A|assert (H := pull_small k); lia|lia]. Qed.

Ltac unseg := repeat match goal with
  | H : seg _ _ _ (_ :: _) _ _ _ _ _ |- _ => inversion H; clear H; subst
  | H : seg _ _ _ [] _ _ _ _ _ |- _ => inversion H; clear H; subst
  end.
Ltac open_means := repeat match goal with
  | H : means _ _ _ _ _ _ _ _ _ |- _ => cbv [means phrase Z.eqb Z.ltb Z.compare Pos.eqb Pos.compare Pos.compare_cont orb hd] in H
  end.
Ltac open_word w H :=
  let k := fresh "k" in let o := fresh "o" in
  destruct w as [k| | | | | | | | | | | | | ]; try discriminate H;
  try (destruct k as [ | | | | | | | | | | | | |o| | | | | | | ]; try discriminate H; try (destruct o; try discriminate H)); clear H.
Ltac opened := repeat match goal with
  | H : exists _, _ |- _ => destruct H
  | H : _ /\ _ |- _ => destruct H
  | H : wnum ?w = _ |- _ => open_word w H
  end; cbn [wval val] in *; subst.

Ltac flat := unfold read_in; cbn [map app]; rewrite ?map_app; cbn [map app]; rewrite ?map_app, <- ?app_assoc; cbn [map app]; rewrite ?map_app, <- ?app_assoc; cbn [map app]; reflexivity.
Ltac means_goal := cbv [means phrase Z.eqb Z.ltb Z.compare Pos.eqb Pos.compare Pos.compare_cont orb].
Ltac ph ws := eexists; split; [means_goal; split; [reflexivity|]; split; [reflexivity|]; split; [reflexivity|]; exists ws; split; [flat|]|intro; reflexivity].
Ltac free := match goal with |- (holds ?b < _)%nat => assert (HS := holds_small b); unfold closed; lia end.
Ltac held := match goal with H : (holds _ < ?p)%nat |- (_ < ?p)%nat => exact H end.
Ltac pulled := repeat match goal with
  | H : fits _ _ (Pushed _) |- _ => cbv [fits pull Z.eqb Pos.eqb] in H; destruct H
  | H : (0 < _ -> _)%nat |- _ => specialize (H ltac:(lia)) end;
  cbn [reach reach_until actual]; lia.

Lemma rule_means : forall r lhs rhs b nx s1 d1 l vs s d x d', rule r = Some (lhs, rhs) -> r <> 1 ->
  seg b s1 d1 (rev rhs) nx l vs s d -> act value r (rev vs) d = Ok (Some (x, d')) ->
  (settles lhs = true -> s1 = d1) -> (lhs = 69 -> hd 0 rhs <> 69 -> s1 = d0 /\ d1 = d0) -> allowed r nx ->
  exists s', means lhs b nx s1 d1 l x s' d' /\ (changes r = false -> s' = s).
Proof.
  intros r lhs rhs b nx s1 d1 l vs s d x d' R R1 SG ACT SE BA AL. apply rule_in in R. cbn [grammar In] in R.
  repeat match type of R with _ \/ _ => destruct R as [R|R]; [injection R as <- <- <-; try (exfalso; apply R1; reflexivity);
      try (specialize (SE eq_refl)); subst; cbn [rev app] in SG; unseg; cbn [rev app] in ACT; open_means; opened; cbn [act] in ACT
    |] | False => destruct R end.
  all: repeat match type of ACT with context [match ?v with _ => _ end] => destruct v eqn:?; try discriminate ACT end.
  all: try match goal with H : (0 =? 0) = false |- _ => discriminate H end.
  all: injection ACT as <- <-.
  - (* 2 *) ph [W (KNumber s0)]. exists (KNumber s0), s0. auto.
  - ph [W (KParam s0)]. exists (KParam s0), s0. auto.
  - (* 4 *) ph [W (KNumber s0)]. exists [KNumber s0], (new_constant value s0). rewrite skel_constant. repeat split; constructor.
  - ph [W (KParam s0)]. exists [KParam s0], (new_constant value s0). rewrite skel_constant. repeat split; constructor.
  - (* 6 *) match goal with FX : find ?y _ = Some ?i, H : (?i =? 0) = false, H' : (?i <? 0) = false |- _ =>
      apply Z.eqb_neq in H; apply Z.ltb_ge in H';
      ph (map W [KSignal y; KLBrack; KTime; KRBrack]); exists [KSignal y; KLBrack; KTime; KRBrack]; eexists; split; [reflexivity|split; [reflexivity|]];
      cbn [skel]; constructor; unfold column; rewrite FX; replace (0 <? i) with true by (symmetry; apply Z.ltb_lt; lia); reflexivity end.
  - (* 7 *) ph (map W x1). eauto 6.
  - ph (map W x1). eauto 6.
  - (* 9 *) ph (map W (KLParen :: x3 ++ [KRParen])). do 2 eexists. split; [reflexivity|]. split; [reflexivity|]. apply O_paren; auto.
  - (* 10 *) ph (map W x1). do 2 eexists. split; [reflexivity|]. split; [reflexivity|]. apply S_operand; auto.
  - (* 11 *) ph (map W (KAbs :: KLParen :: x4 ++ [KRParen])). do 2 eexists. split; [reflexivity|]. split; [reflexivity|]. cbn [skel]. apply S_abs; auto.
  - (* 12 *) ph (map W x1). eauto 6.
  - (* 13 *) ph (map W (x5 ++ KTimes :: x2)). do 2 eexists. split; [reflexivity|]. split; [reflexivity|]. cbn [skel]. apply S_times; auto.
  - (* 14 *) ph (map W x1). eauto 6.
  - (* 15 *) ph (map W (x5 ++ KPlus :: x2)). do 2 eexists. split; [reflexivity|]. split; [reflexivity|]. cbn [skel]. apply S_plus; auto.
  - (* 16 *) ph (map W (x5 ++ KMinus :: x2)). do 2 eexists. split; [reflexivity|]. split; [reflexivity|]. cbn [skel]. apply S_minus; auto.
  - (* 17 *) ph (map W x1). eauto 6.
  - (* 18 *) match goal with H : (_ /\ _) \/ (_ /\ _) |- _ => destruct H as [(-> & E)|(-> & E)]; injection E as -> end.
    + ph (map W (x5 ++ KLess :: x2)). do 2 eexists. split; [reflexivity|]. split; [reflexivity|]. cbn [skel]. apply F_less; auto.
    + ph (map W (x5 ++ KGreater :: x2)). do 2 eexists. split; [reflexivity|]. split; [reflexivity|]. cbn [skel]. apply F_greater; auto.
  - (* 19 *) ph [W KLess]. auto.
  - ph [W KGreater]. auto.
  - (* 21 *) ph (map W [KLBrack; x4; KComma; x7; KRBrack]). do 2 eexists. split; [reflexivity|]. split; [reflexivity|].
    apply R_comma; (match goal with H : ?y = _ \/ ?y = _ |- limit _ ?y _ => destruct H; subst y; constructor end).
  - (* 22 *) ph (map W [KLBrack; x3; x6; KRBrack]). do 2 eexists. split; [reflexivity|]. split; [reflexivity|].
    apply R_blank; (match goal with H : ?y = _ \/ ?y = _ |- limit _ ?y _ => destruct H; subst y; constructor end).
  - (* 23 *) ph (map W x1). do 4 eexists. split; [reflexivity|]. split; [reflexivity|]. split; [eassumption|]. split; [free|]. eapply fits_closed; eauto.
  - (* 24 *) ph (map W (KNot :: x2)). do 4 eexists. split; [reflexivity|]. split; [reflexivity|]. cbn [skel]. split; [eapply F_not; [eassumption|held]|]. split; [free|].
    eapply (fits_min _ b 24); eauto.
  - (* 25 *) ph (map W (x7 ++ KBin And :: x2)). do 4 eexists. split; [reflexivity|]. split; [reflexivity|]. cbn [skel].
    split; [eapply (F_bin _ _ _ _ And); [eassumption|eassumption|pulled|held]|]. split; [pulled|]. eapply (fits_min _ b 25); eauto.
  - ph (map W (x7 ++ KBin Or :: x2)). do 4 eexists. split; [reflexivity|]. split; [reflexivity|]. cbn [skel].
    split; [eapply (F_bin _ _ _ _ Or); [eassumption|eassumption|pulled|held]|]. split; [pulled|]. eapply (fits_min _ b 26); eauto.
  - ph (map W (x7 ++ KBin Implies :: x2)). do 4 eexists. split; [reflexivity|]. split; [reflexivity|]. cbn [skel].
    split; [eapply (F_bin _ _ _ _ Implies); [eassumption|eassumption|pulled|held]|]. split; [pulled|]. eapply (fits_min _ b 27); eauto.
  - (* 28 *) ph (map W (KEv :: x2 ++ x5)). do 4 eexists. split; [reflexivity|]. split; [reflexivity|]. cbn [skel].
    split; [eapply F_ev; [eassumption|eassumption|held]|]. split; [free|]. eapply (fits_min _ b 28); eauto.
  - ph (map W (KAlw :: x2 ++ x5)). do 4 eexists. split; [reflexivity|]. split; [reflexivity|]. cbn [skel].
    split; [eapply F_alw; [eassumption|eassumption|held]|]. split; [free|]. eapply (fits_min _ b 29); eauto.
  - (* 30 *) ph (map W (x10 ++ KUntil :: x2 ++ x5)). do 4 eexists. split; [reflexivity|]. split; [reflexivity|]. cbn [skel].
    split; [eapply F_until; [eassumption|eassumption|eassumption|pulled|held]|]. split; [pulled|]. eapply (fits_min _ b 30); eauto.
  - (* 31 *) ph (map W (KLParen :: x3 ++ [KRParen])). do 4 eexists. split; [reflexivity|]. split; [reflexivity|]. split; [eapply F_paren; eassumption|]. split; [free|]. eapply fits_closed; eauto.
  - (* 32 *) ph (map W [KPhi s0]). do 4 eexists. split; [reflexivity|]. split; [reflexivity|]. split; [eapply F_name; unfold meaning|].
    + match goal with H : find _ _ = Some _ |- _ => rewrite H end. cbn [option_map]. rewrite skel_clone. reflexivity.
    + split; [free|]. eapply fits_closed; eauto.
  - (* 33 *) eexists. split; [means_goal|intro; reflexivity]. exists x0, x3. do 3 eexists. split; [flat|]. split; [eassumption|]. split; reflexivity.
  - (* 34 *) eexists. split; [means_goal|intro; reflexivity]. eexists. split; [|split; [apply Th_short|split; reflexivity]]. flat.
  - (* 35 *) eexists. split; [means_goal|intro; reflexivity]. eexists. split; [|split; [eapply Th_long; eassumption|split; reflexivity]]. flat.
  - (* 36 *) ph [KTrue]. exists KTrue. split; [reflexivity|constructor].
  - ph [KFalse]. exists KFalse. split; [reflexivity|constructor].
  - (* 38 *) eexists. split; [means_goal|discriminate]. split; [reflexivity|]. split; [reflexivity|]. do 3 eexists. split; [|split; [apply Se_known|reflexivity]]. flat.
  - eexists. split; [means_goal|discriminate]. split; [reflexivity|]. split; [reflexivity|]. do 3 eexists. split; [|split; [apply Se_new|reflexivity]]. flat.
  - (* 40 *) eexists. split; [means_goal|intro; reflexivity]. split; [reflexivity|]. split; [reflexivity|]. cbn [app]. apply Pa_one. assumption.
  - (* 41 *) eexists. split; [means_goal|intro; reflexivity]. split; [reflexivity|]. split; [reflexivity|]. cbn [app]. rewrite <- app_assoc. apply Pa_more; assumption.
  - (* 42 *) eexists. split; [means_goal|intro; reflexivity]. eexists. split; [reflexivity|]. split; [assumption|reflexivity].
  - (* 43 *) ph [W (KParam s3); KEqual; W (KNumber s2)]. do 2 eexists. constructor.
  - ph [KNew x0; KEqual; W (KNumber s2)]. do 2 eexists. constructor.
  - (* 45 *) ph x0. eapply Lo_one. eassumption.
  - ph (x4 ++ W KComma :: x1). eapply Lo_more; eassumption.
  - (* 47 *) ph (@nil word). constructor.
  - ph (W KLParen :: x2 ++ [W KRParen]). constructor. assumption.
  - (* 49 *) eexists. split; [means_goal|discriminate]. split; [reflexivity|]. split; [reflexivity|]. eexists. split; [reflexivity|]. constructor.
  - (* 50 *) eexists. split; [means_goal|intro; reflexivity]. split; [reflexivity|]. split; [reflexivity|]. eexists. split; [reflexivity|]. constructor.
  - (* 51 *) eexists. split; [means_goal|intro; reflexivity]. split; [reflexivity|]. split; [reflexivity|]. apply Sg_one. assumption.
  - (* 52 *) eexists. split; [means_goal|intro; reflexivity]. split; [reflexivity|]. split; [reflexivity|]. cbn [app]. rewrite <- app_assoc. eapply Sg_more; eassumption.
  - (* 53 *) eexists. split; [means_goal|intro; reflexivity]. eexists. split; [reflexivity|]. split; [assumption|reflexivity].
  - (* 54 *) eexists. split; [means_goal|discriminate]. split; [reflexivity|]. split; [reflexivity|].
    replace (fst d12, snd d12) with (with_test d12 x0); [|unfold with_test; fold (in_names x0 (snd d12)); match goal with H : in_names _ _ = _ |- _ => rewrite H end; reflexivity].
    match goal with |- test _ _ ?L _ => replace L with (read_in d12 (KNew x0 :: x8 ++ KOpen :: map W x10 ++ [W KComma; KText s10; W KComma; KText s11; W KComma; x15; KClose])) by flat end.
    eapply Te_new; eassumption.
  - eexists. split; [means_goal|discriminate]. split; [reflexivity|]. split; [reflexivity|].
    replace (fst d12, x0 :: snd d12) with (with_test d12 x0); [|unfold with_test; fold (in_names x0 (snd d12)); match goal with H : in_names _ _ = _ |- _ => rewrite H end; reflexivity].
    match goal with |- test _ _ ?L _ => replace L with (read_in d12 (KNew x0 :: x8 ++ KOpen :: map W x10 ++ [W KComma; KText s10; W KComma; KText s11; W KComma; x15; KClose])) by flat end.
    eapply Te_new; eassumption.
  - (* 55 *) eexists. split; [means_goal|intro; reflexivity]. split; [reflexivity|]. split; [reflexivity|]. apply Te_known. assumption.
  - (* 56 *) eexists. split; [means_goal|intro; reflexivity]. split; [reflexivity|]. split; [reflexivity|]. eapply Ts_more; eassumption.
  - (* 57 *) eexists. split; [means_goal|intro; reflexivity]. split; [reflexivity|]. split; [reflexivity|]. apply Ts_one; assumption.
  - (* 58 *) eexists. split; [means_goal|intro; reflexivity]. do 2 eexists. split; [|split; [eassumption|split; [eassumption|reflexivity]]]. flat.
  - (* 59 *) destruct (BA eq_refl ltac:(discriminate)) as (-> & ->). eexists. split; [means_goal|intro; reflexivity]. split; [reflexivity|]. split; [reflexivity|]. apply Pr_first. eapply St_define. eassumption.
  - (* 60 *) destruct (BA eq_refl ltac:(discriminate)) as (-> & ->). eexists. split; [means_goal|intro; reflexivity]. split; [reflexivity|]. split; [reflexivity|]. apply Pr_first. apply St_tests; assumption.
  - (* 61 *) destruct (BA eq_refl ltac:(discriminate)) as (-> & ->). eexists. split; [means_goal|intro; reflexivity]. split; [reflexivity|]. split; [reflexivity|]. apply Pr_first. apply St_params; assumption.
  - (* 62 *) destruct (BA eq_refl ltac:(discriminate)) as (-> & ->). eexists. split; [means_goal|intro; reflexivity]. split; [reflexivity|]. split; [reflexivity|]. apply Pr_signals; assumption.
  - (* 63 *) eexists. split; [means_goal|intro; reflexivity]. split; [reflexivity|]. split; [reflexivity|]. eapply Pr_next; [eassumption|]. eapply St_define. eassumption.
  - (* 64 *) eexists. split; [means_goal|intro; reflexivity]. split; [reflexivity|]. split; [reflexivity|]. eapply Pr_next; [eassumption|]. apply St_tests; assumption.
  - (* 65 *) eexists. split; [means_goal|intro; reflexivity]. split; [reflexivity|]. split; [reflexivity|]. eapply Pr_next; [eassumption|]. apply St_params; assumption.
Qed.
End Lang.
