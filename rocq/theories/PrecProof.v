(** The parser accepts every formula of the grammar with the precedences [actual], and builds that formula. *)
From Coq Require Import List Bool String Ascii ZArith Lia.
From Verif Require Import Num Base Signal Robust Transducer TreeProof Driver Tables Parser Automaton ParserProof ParserSpec ParserTotal.
Import ListNotations.
Local Open Scope Z_scope.

Section Prec.
Context {T : Type} {N : Num T}.
Variable s_to_d : string -> option T.
Notation sval := (sval (T := T)).
Notation conf := (conf (T := T)).
Notation parsed := (parsed (T := T)).

(** ** Steps *)
Inductive steps : conf -> conf -> Prop :=
| steps_refl : forall c, steps c c
| steps_step : forall c c1 c2, pstep s_to_d c = Ok (Next c1) -> steps c1 c2 -> steps c c2.
Lemma steps_trans : forall a b c, steps a b -> steps b c -> steps a c.
Proof. induction 1; intros; auto. econstructor; eauto. Qed.

(** The tokens that come next, and the text after them. *)
Inductive reads (d : parsed) : option (Z * sval) -> string -> list (Z * sval) -> string -> Prop :=
| reads_nil : forall s, reads d None s [] s
| reads_la : forall t s l r, reads d None s l r -> reads d (Some t) s (t :: l) r
| reads_lex : forall s k v s' l r, yylex d s = (k, v, s') -> reads d None s' l r -> reads d None s ((yytranslate k, v) :: l) r.

Definition at_ (d : parsed) (c : conf) (st : list (Z * sval)) (l : list (Z * sval)) (rest : string) : Prop :=
  c_stack c = st /\ c_d c = d /\ reads d (c_la c) (c_in c) l rest.

Definition next_action (s tok : Z) : res action :=
  if s =? yyfinal then UB else
  b <- blind s ;; if b : bool then yydefault s else decide s tok.

Lemma go_shift : forall d c s v st tok w l rest s' (P : conf -> Prop),
  at_ d c ((s, v) :: st) ((tok, w) :: l) rest -> next_action s tok = Ok (Shift s') -> blind s = Ok false ->
  (forall c1, at_ d c1 ((s', w) :: (s, v) :: st) l rest -> exists c', steps c1 c' /\ P c') ->
  exists c', steps c c' /\ P c'.
Proof.
  intros d c s v st tok w l rest s' P (A & B & R) X BL K. unfold next_action in X.
  destruct (s =? yyfinal) eqn:F; [discriminate|]. rewrite BL in X. cbn [bind] in X.
  assert (E : exists rest', (match c_la c with
            | Some (tok, v0) => (tok, v0, c_in c)
            | None => let '(k, v0, r) := yylex (c_d c) (c_in c) in (yytranslate k, v0, r) end) = (tok, w, rest') /\ reads d None rest' l rest).
  { rewrite B. inversion R; subst; [eauto|].
    match goal with Y : yylex _ _ = _ |- _ => rewrite Y end. eauto. }
  destruct E as (rest' & E & R').
  destruct (K (mkC ((s', w) :: (s, v) :: st) None rest' d)) as (c' & S & H).
  - repeat split; auto.
  - exists c'. split; auto. econstructor; [|exact S]. unfold pstep. rewrite A, F, BL. cbn [bind].
    rewrite E. cbn [bind]. rewrite X. cbn [bind]. rewrite B. reflexivity.
Qed.

Lemma go_reduce : forall d c r lhs rhs es s v st a l rest x s' (P : conf -> Prop),
  at_ d c (es ++ (s, v) :: st) (a :: l) rest ->
  next_action (top (es ++ (s, v) :: st)) (fst a) = Ok (Reduce r) -> rule r = Some (lhs, rhs) -> List.length es = List.length rhs ->
  tab yyr1 r = Ok lhs -> tab yyr2 r = Ok (Z.of_nat (List.length rhs)) ->
  act s_to_d r (rev (map snd es)) d = Ok (Some (x, d)) -> lr_goto s lhs = Ok s' ->
  (forall c1, at_ d c1 ((s', x) :: (s, v) :: st) (a :: l) rest -> exists c', steps c1 c' /\ P c') ->
  exists c', steps c c' /\ P c'.
Proof.
  intros d c r lhs rhs es s v st [tok w] l rest x s' P (A & B & R) X RU LE T1 T2 AC GO K. unfold next_action in X.
  set (stk := es ++ (s, v) :: st) in *. cbn [fst] in X.
  destruct (top stk =? yyfinal) eqn:F; [discriminate|].
  assert (RED : forall la inp, reduce s_to_d (mkC stk la inp d) r = Ok (Next (mkC ((s', x) :: (s, v) :: st) la inp d))).
  { intros la inp. unfold reduce. rewrite T1, T2. cbn [bind c_stack c_d c_la c_in]. rewrite Nat2Z.id, <- LE.
    unfold stk. rewrite skipn_app, skipn_all, Nat.sub_diag. cbn [skipn app]. rewrite GO. cbn [bind].
    rewrite firstn_app, firstn_all, Nat.sub_diag. cbn [firstn]. rewrite app_nil_r, AC. reflexivity. }
  assert (TS : exists w0 st0, stk = (top stk, w0) :: st0).
  { destruct stk as [|[t0 w0] st0] eqn:E; [destruct es; discriminate|]. exists w0, st0. reflexivity. }
  destruct TS as (w0 & st0 & TS).
  destruct (blind (top stk)) as [bl| | | |] eqn:BL; try discriminate. cbn [bind] in X. destruct bl.
  - destruct (K (mkC ((s', x) :: (s, v) :: st) (c_la c) (c_in c) d)) as (c' & S & H); [repeat split; auto|].
    exists c'. split; auto. econstructor; [|exact S]. unfold pstep. rewrite A, TS, F, BL. cbn [bind]. rewrite X. cbn [bind].
    rewrite <- (RED (c_la c) (c_in c)). destruct c as [cs cl ci cd]. cbn [c_stack c_la c_in c_d] in *. subst. reflexivity.
  - assert (E : exists rest', (match c_la c with
            | Some (tok, v0) => (tok, v0, c_in c)
            | None => let '(k, v0, r) := yylex (c_d c) (c_in c) in (yytranslate k, v0, r) end) = (tok, w, rest') /\ reads d None rest' l rest).
    { rewrite B. inversion R; subst; [eauto|].
      match goal with Y : yylex _ _ = _ |- _ => rewrite Y end. eauto. }
    destruct E as (rest' & E & R').
    destruct (K (mkC ((s', x) :: (s, v) :: st) (Some (tok, w)) rest' d)) as (c' & S & H); [repeat split; auto; constructor; auto|].
    exists c'. split; auto. econstructor; [|exact S]. unfold pstep. rewrite A, TS, F, BL. cbn [bind].
    rewrite E. cbn [bind]. rewrite X. cbn [bind]. rewrite <- TS, B. apply RED.
Qed.

(** ** Tokens of the grammar as the scanner delivers them *)
Definition num (k : tok) : Z :=
  match k with
  | KLParen => 5 | KRParen => 6 | KLBrack => 3 | KRBrack => 4 | KTime => 16 | KComma => 17
  | KLess => 7 | KGreater => 9 | KPlus => 20 | KMinus => 21 | KTimes => 22 | KAbs => 23
  | KNot => 8 | KBin And => 10 | KBin Or => 11 | KBin Implies => 12 | KAlw => 13 | KEv => 14 | KUntil => 15
  | KNumber _ => 30 | KParam _ => 31 | KPhi _ => 32 | KSignal _ => 34
  end.
Definition val (k : tok) : sval :=
  match k with KNumber s | KParam s | KPhi s | KSignal s => VStr s | _ => VNone end.
Definition enc (k : tok) : Z * sval := (num k, val k).

Variable d : parsed.
Definition column (x : string) : option nat :=
  match find x (d_signals (fst d)) with Some i => if 0 <? i then Some (Z.to_nat i) else None | None => None end.
Definition meaning (s : string) : option (fml T) := option_map skel (find s (d_formulas (fst d))).
Notation operand := (operand s_to_d column).
Notation sum := (sum s_to_d column).
Notation range := (range s_to_d).
Notation formula := (formula s_to_d column meaning actual).

(** States in which a signal expression, an operand, a formula may start. *)
Definition at_sum : list Z := [20; 31; 32; 62; 63; 64; 71; 72; 73; 74; 89; 99; 104].
Definition at_operand : list Z := [66; 67; 68] ++ at_sum.
Definition at_formula : list Z := [20; 31; 32; 62; 63; 72; 73; 74; 99; 104].

Definition after (s sym : Z) : Z := match lr_goto s sym with Ok s' => s' | _ => -1 end.

Ltac each H := cbn [In app at_sum at_operand at_formula] in H;
  repeat match type of H with _ \/ _ => destruct H as [H|H]; [match type of H with _ = ?x => subst x end|] | False => destruct H end.
Ltac shift := eapply go_shift; [eassumption|vm_compute; reflexivity|vm_compute; reflexivity|clear_at; intros ? ?]
with clear_at := match goal with H : at_ _ _ _ _ _ |- _ => clear H end.
Ltac reduce es := eapply (go_reduce d _ _ _ _ es); [cbn [app]; eassumption|vm_compute; reflexivity|vm_compute; reflexivity|reflexivity|vm_compute; reflexivity|vm_compute; reflexivity|cbn [act rev app map snd]|vm_compute; reflexivity|clear_at; intros ? ?].

Definition reaches (c : conf) (st : list (Z * sval)) (s : Z) (f : fml T) (l : list (Z * sval)) (rest : string) : Prop :=
  exists c', steps c c' /\ exists t, skel t = f /\ at_ d c' ((s, VTree t) :: st) l rest.

Lemma skel_constant : forall s, skel (new_constant s_to_d s) = constant s_to_d s.
Proof. intro s. unfold new_constant, constant. destruct (s_to_d s); reflexivity. Qed.


Lemma go_reaches : forall c st s f l rest (P : conf -> Prop), reaches c st s f l rest ->
  (forall c1 t, skel t = f -> at_ d c1 ((s, VTree t) :: st) l rest -> exists c', steps c1 c' /\ P c') ->
  exists c', steps c c' /\ P c'.
Proof.
  intros c st s f l rest P (c1 & S1 & t & F & A) K. destruct (K c1 t F A) as (c' & S2 & H).
  exists c'. split; auto. eapply steps_trans; eauto.
Qed.
Lemma arrived : forall c st s t f l rest, skel t = f -> at_ d c ((s, VTree t) :: st) l rest ->
  exists c', steps c c' /\ exists t, skel t = f /\ at_ d c' ((s, VTree t) :: st) l rest.
Proof. intros. exists c. split; [constructor|]. eauto. Qed.

Scheme operand_mut := Minimality for ParserSpec.operand Sort Prop
with sum_mut := Minimality for ParserSpec.sum Sort Prop.
Combined Scheme operand_sum_ind from operand_mut, sum_mut.

Ltac split_enc_in H := cbn [map app] in H; repeat (first [rewrite map_app in H | rewrite <- app_assoc in H]; cbn [map app] in H).

Lemma up_to_sum : forall c s v st t f l rest, In s at_sum -> skel t = f -> at_ d c ((42, VTree t) :: (s, v) :: st) l rest -> l <> [] ->
  reaches c ((s, v) :: st) 45 f l rest.
Proof.
  intros c s v st t f l rest IN F A NE. unfold reaches. destruct l as [|a l]; [congruence|].
  each IN; (reduce [(42, VTree t)]; [reflexivity|]; reduce [(43, VTree t)]; [reflexivity|]; reduce [(44, VTree t)]; [reflexivity|];
    eapply arrived; eauto).
Qed.

Lemma operands_run :
  (forall ts f, operand ts f -> forall c s v st a l rest, In s at_operand ->
     at_ d c ((s, v) :: st) (map enc ts ++ a :: l) rest -> reaches c ((s, v) :: st) (after s 45) f (a :: l) rest) /\
  (forall ts f, sum ts f -> forall c s v st a l rest, In s at_sum ->
     at_ d c ((s, v) :: st) (map enc ts ++ a :: l) rest -> reaches c ((s, v) :: st) 45 f (a :: l) rest).
Proof.
  apply operand_sum_ind.
  - (* signal *) intros x i C c s v st a l rest IN A. cbn [map app enc num val] in A.
    unfold column in C. destruct (find x (d_signals (fst d))) as [j|] eqn:FX; [|discriminate].
    destruct (0 <? j) eqn:J; [|discriminate]. apply Z.ltb_lt in J. assert (Z.to_nat j = i) by congruence. subst i.
    each IN; (shift; shift; shift; shift;
      reduce [(110, VNone (T := T)); (91, VNone); (65, VNone); (39, VStr x)];
      [rewrite FX; rewrite (proj2 (Z.eqb_neq j 0)) by lia; rewrite (proj2 (Z.ltb_ge j 0)) by lia; reflexivity|];
      reduce [(41, VTree (TSig (new_node (T := T)) None x (Z.to_nat j)))]; [reflexivity|];
      eapply arrived; [|eassumption]; reflexivity).
  - (* number *) intros x c s v st a l rest IN A. cbn [map app enc num val] in A.
    each IN; (shift; reduce [(36, VStr (T := T) x)]; [reflexivity|]; reduce [(40, VTree (new_constant s_to_d x))]; [reflexivity|];
      eapply arrived; [apply skel_constant|eassumption]).
  - intros x c s v st a l rest IN A. cbn [map app enc num val] in A.
    each IN; (shift; reduce [(37, VStr (T := T) x)]; [reflexivity|]; reduce [(40, VTree (new_constant s_to_d x))]; [reflexivity|];
      eapply arrived; [apply skel_constant|eassumption]).
  - (* parenthesis *) intros ts f _ IH c s v st a l rest IN A. split_enc_in A.
    each IN; (eapply go_shift; [exact A|vm_compute; reflexivity|vm_compute; reflexivity|]; clear A; intros c1 A;
      eapply go_reaches; [eapply IH; [|exact A]; cbn; tauto|]; clear A c1; intros c1 t F A;
      reduce [(45, VTree t)]; [reflexivity|]; shift;
      match goal with H : at_ _ _ ((?p, _) :: (?q, _) :: (?r, _) :: _) _ _ |- _ =>
        reduce [(p, VNone (T := T)); (q, VTree t); (r, VNone)] end; [reflexivity|];
      eapply arrived; [exact F|eassumption]).
  - (* sums *) intros ts f _ IH c s v st a l rest IN A.
    eapply go_reaches; [eapply IH; [|exact A]; unfold at_operand; apply in_or_app; right; exact IN|].
    intros c1 t F A1. assert (E : after s 45 = 42) by (each IN; vm_compute; reflexivity). rewrite E in A1.
    eapply up_to_sum; eauto. discriminate.
  - (* abs *) intros ts f _ IH c s v st a l rest IN A. split_enc_in A.
    each IN; (eapply go_shift; [exact A|vm_compute; reflexivity|vm_compute; reflexivity|]; clear A; intros c1 A;
      eapply go_shift; [exact A|vm_compute; reflexivity|vm_compute; reflexivity|]; clear c1 A; intros c1 A;
      eapply go_reaches; [eapply IH; [|exact A]; cbn; tauto|]; clear A c1; intros c1 t F A;
      reduce [(45, VTree t)]; [reflexivity|]; shift;
      reduce [(109, VNone (T := T)); (90, VTree t); (64, VNone); (35, VNone)]; [reflexivity|];
      reduce [(43, VTree (TAbs (new_node (T := T)) t))]; [reflexivity|];
      reduce [(44, VTree (TAbs (new_node (T := T)) t))]; [reflexivity|];
      eapply arrived; [|eassumption]; cbn [skel]; rewrite F; reflexivity).
  - intros ts l us r _ IHl _ IHr c s v st a l' rest IN A. split_enc_in A.
    eapply go_reaches; [eapply IHl; eauto|]. clear A. intros c1 t F A.
    eapply go_shift; [exact A|vm_compute; reflexivity|vm_compute; reflexivity|]. clear A c1. intros c1 A.
    eapply go_reaches; [eapply IHr; [|exact A]; cbn; tauto|]. clear A c1. intros c1 t' F' A. change (after 66 45) with 92 in A.
    each IN; (reduce [(92, VTree t'); (66, VNone); (45, VTree t)]; [reflexivity|];
      eapply arrived; [|eassumption]; cbn [skel]; rewrite F, F'; reflexivity).
  - intros ts l us r _ IHl _ IHr c s v st a l' rest IN A. split_enc_in A.
    eapply go_reaches; [eapply IHl; eauto|]. clear A. intros c1 t F A.
    eapply go_shift; [exact A|vm_compute; reflexivity|vm_compute; reflexivity|]. clear A c1. intros c1 A.
    eapply go_reaches; [eapply IHr; [|exact A]; cbn; tauto|]. clear A c1. intros c1 t' F' A. change (after 67 45) with 93 in A.
    each IN; (reduce [(93, VTree t'); (67, VNone); (45, VTree t)]; [reflexivity|];
      eapply arrived; [|eassumption]; cbn [skel]; rewrite F, F'; reflexivity).
  - intros ts l us r _ IHl _ IHr c s v st a l' rest IN A. split_enc_in A.
    eapply go_reaches; [eapply IHl; eauto|]. clear A. intros c1 t F A.
    eapply go_shift; [exact A|vm_compute; reflexivity|vm_compute; reflexivity|]. clear A c1. intros c1 A.
    eapply go_reaches; [eapply IHr; [|exact A]; cbn; tauto|]. clear A c1. intros c1 t' F' A. change (after 68 45) with 94 in A.
    each IN; (reduce [(94, VTree t'); (68, VNone); (45, VTree t)]; [reflexivity|];
      try (reduce [(44, VTree (TMult (new_node (T := T)) t t'))]; [reflexivity|]);
      eapply arrived; [|eassumption]; cbn [skel]; rewrite F, F'; reflexivity).
Qed.

Definition sum_run := proj2 operands_run.

(** ** Intervals *)
Lemma range_run : forall is i, range is i -> forall c s v st a l rest (P : conf -> Prop), In s [33; 34; 75] ->
  at_ d c ((s, v) :: st) (map enc is ++ a :: l) rest ->
  (forall c1, at_ d c1 ((after s 52, VInt i) :: (s, v) :: st) (a :: l) rest -> exists c', steps c1 c' /\ P c') ->
  exists c', steps c c' /\ P c'.
Proof.
  assert (LIM : forall k x, limit s_to_d k x -> exists w, val k = VStr w /\ (num k = 30 \/ num k = 31) /\ x = new_bound s_to_d w).
  { intros k x [w|w]; exists w; cbn; auto. }
  intros is i [ka kb x y La Lb|ka kb x y La Lb] c s v st a l rest P IN A K; cbn [map app] in A;
    destruct (LIM _ _ La) as (wa & Va & Na & ->); destruct (LIM _ _ Lb) as (wb & Vb & Nb & ->);
    unfold enc in A; rewrite Va, Vb in A; clear La Lb Va Vb LIM;
    destruct Na as [Na|Na]; rewrite Na in A; clear Na; destruct Nb as [Nb|Nb]; rewrite Nb in A; clear Nb;
    each IN;
    (shift; shift;
     match goal with H : at_ _ _ ((?p, _) :: _) _ _ |- _ => reduce [(p, VStr (T := T) wa)] end; [reflexivity|];
     try (eapply go_shift; [eassumption|vm_compute; reflexivity|vm_compute; reflexivity|]; clear_at; intros ? ?);
     try (eapply go_shift; [eassumption|vm_compute; reflexivity|vm_compute; reflexivity|]; clear_at; intros ? ?);
     match goal with H : at_ _ _ ((?p, _) :: _) _ _ |- _ => reduce [(p, VStr (T := T) wb)] end; [reflexivity|];
     shift;
     match goal with
     | H : at_ _ _ ((?p, _) :: (?q, _) :: (17, _) :: (?r, _) :: (?m, _) :: _) _ _ |- _ => idtac
     | H : at_ _ _ ((?p, _) :: (?q, _) :: (106, _) :: (?r, _) :: (?m, _) :: _) _ _ |- _ =>
         reduce [(p, VNone (T := T)); (q, VStr wb); (106, VNone); (r, VStr wa); (m, VNone)]; [reflexivity|]
     | H : at_ _ _ ((?p, _) :: (?q, _) :: (?r, _) :: (?m, _) :: _) _ _ |- _ =>
         reduce [(p, VNone (T := T)); (q, VStr wb); (r, VStr wa); (m, VNone)]; [reflexivity|]
     end;
     eapply K; eassumption).
Qed.

(** ** Formulas *)

(** How strongly a token pulls the formula before it, and how strongly a state holds the formula after it. *)
Definition pull (k : Z) : nat :=
  if k =? 10 then 1%nat else if k =? 11 then 2%nat else if k =? 12 then 4%nat else if k =? 15 then 6%nat else 0%nat.
Definition held (s : Z) : nat :=
  if s =? 32 then 3%nat else if (s =? 62) || (s =? 63) || (s =? 99) then 6%nat
  else if (s =? 72) || (s =? 73) || (s =? 74) then 1%nat else 0%nat.
Definition completes (s : Z) : Z :=
  if s =? 32 then 24 else if s =? 62 then 29 else if s =? 63 then 28 else if s =? 72 then 25
  else if s =? 73 then 26 else if s =? 74 then 27 else 30.

Definition closing : list Z := [32; 62; 63; 72; 73; 74; 99].
Lemma closes : forall s k, In s closing -> In k tokens -> (pull k <= held s)%nat ->
  next_action (after s 53) k = Ok (Reduce (completes s)).
Proof.
  assert (H : forallb (fun s => forallb (fun k => negb (Nat.leb (pull k) (held s)) ||
    match next_action (after s 53) k with Ok (Reduce r) => r =? completes s | _ => false end) tokens) closing = true)
    by (vm_compute; reflexivity).
  intros s k IS IK LE. rewrite forallb_forall in H. specialize (H s IS). rewrite forallb_forall in H. specialize (H k IK).
  apply orb_prop in H. destruct H as [H|H].
  - apply negb_true_iff, Nat.leb_gt in H. lia.
  - destruct (next_action (after s 53) k) as [[|r|]| | | |]; try discriminate. apply Z.eqb_eq in H. now subst.
Qed.

Definition plain_token (k : Z) : Prop := In k tokens /\ k <> 20 /\ k <> 21 /\ k <> 22.
Lemma sum_ends : forall k, plain_token k -> next_action 45 k = Ok (Reduce 17).
Proof.
  assert (H : forallb (fun k => (k =? 20) || (k =? 21) || (k =? 22) ||
    match next_action 45 k with Ok (Reduce r) => r =? 17 | _ => false end) tokens = true) by (vm_compute; reflexivity).
  intros k (IK & A & B & C). rewrite forallb_forall in H. specialize (H k IK).
  rewrite (proj2 (Z.eqb_neq k 20)), (proj2 (Z.eqb_neq k 21)), (proj2 (Z.eqb_neq k 22)) in H by assumption. cbn [orb] in H.
  destruct (next_action 45 k) as [[|r|]| | | |]; try discriminate. apply Z.eqb_eq in H. now subst.
Qed.

Lemma formula_top : forall ts f p q, formula ts f p q -> (0 < p)%nat.
Proof.
  induction 1; unfold closed; try lia; try (cbn; lia).
  match goal with |- context [reach actual ?b] => destruct b end; cbn; lia.
Qed.

Lemma formula_run : forall ts f p q, formula ts f p q -> forall c s v st a l rest, In s at_formula -> (held s < p)%nat ->
  plain_token (fst a) -> (pull (fst a) <= q)%nat ->
  at_ d c ((s, v) :: st) (map enc ts ++ a :: l) rest -> reaches c ((s, v) :: st) (after s 53) f (a :: l) rest.
Proof.
  assert (SUM : forall s, In s at_formula -> In s at_sum).
  { intros s IN. each IN; cbn; tauto. }
  assert (ATOM : forall o k, (k = 7 /\ o = LESSTHAN) \/ (k = 9 /\ o = GREATERTHAN) ->
    forall ts us l r, sum ts l -> sum us r -> forall c s v st a l' rest, In s at_formula -> plain_token (fst a) ->
    at_ d c ((s, v) :: st) (map enc ts ++ (k, VNone) :: map enc us ++ a :: l') rest ->
    reaches c ((s, v) :: st) (after s 53) (FAtom l o r) (a :: l') rest).
  { intros o k KO ts us l r Sl Sr c s v st a l' rest IN PL A.
    eapply go_reaches; [eapply sum_run; [exact Sl|apply SUM; exact IN|exact A]|]. clear A. intros c1 t F A.
    assert (NE : exists b m, map enc us ++ a :: l' = b :: m) by (destruct us; cbn; eauto). destruct NE as (b & m & NE). rewrite NE in A.
    destruct KO as [[-> ->]|[-> ->]].
    - each IN; (reduce [(45, VTree t)]; [reflexivity|]; shift; reduce [(69, VNone (T := T))]; [reflexivity|];
        match goal with H : at_ _ _ _ _ _ |- _ => rewrite <- NE in H end;
        eapply go_reaches; [eapply sum_run; [exact Sr| |eassumption]; cbn; tauto|];
        clear_at; intros ? t' F' ?;
        (eapply (go_reduce d _ _ _ _ [(45, VTree t')]); [cbn [app]; eassumption|apply sum_ends; exact PL|vm_compute; reflexivity|reflexivity|vm_compute; reflexivity|vm_compute; reflexivity|reflexivity|vm_compute; reflexivity|clear_at; intros ? ?]);
        match goal with H : at_ _ _ (_ :: _ :: (?m, _) :: _) _ _ |- _ => reduce [(95, VTree t'); (71, VStr "<"%string); (m, VTree t)] end; [reflexivity|];
        reduce [(47, VTree (TAtom (new_node (T := T)) t LESSTHAN t'))]; [reflexivity|];
        eapply arrived; [|eassumption]; cbn [skel]; rewrite F, F'; reflexivity).
    - each IN; (reduce [(45, VTree t)]; [reflexivity|]; shift; reduce [(70, VNone (T := T))]; [reflexivity|];
        match goal with H : at_ _ _ _ _ _ |- _ => rewrite <- NE in H end;
        eapply go_reaches; [eapply sum_run; [exact Sr| |eassumption]; cbn; tauto|];
        clear_at; intros ? t' F' ?;
        (eapply (go_reduce d _ _ _ _ [(45, VTree t')]); [cbn [app]; eassumption|apply sum_ends; exact PL|vm_compute; reflexivity|reflexivity|vm_compute; reflexivity|vm_compute; reflexivity|reflexivity|vm_compute; reflexivity|clear_at; intros ? ?]);
        match goal with H : at_ _ _ (_ :: _ :: (?m, _) :: _) _ _ |- _ => reduce [(95, VTree t'); (71, VStr ">"%string); (m, VTree t)] end; [reflexivity|];
        reduce [(47, VTree (TAtom (new_node (T := T)) t GREATERTHAN t'))]; [reflexivity|];
        eapply arrived; [|eassumption]; cbn [skel]; rewrite F, F'; reflexivity). }
  induction 1 as [ts us l r Sl Sr|ts us l r Sl Sr|x f M|ts f p q Hf IH|ts f p q Hf IH Hp|is i ts f p q Ri Hf IH Hp|is i ts f p q Ri Hf IH Hp
    |o ts l p q us r p' q' Hl IHl Hr IHr Hq Hp|ts l p q is i us r p' q' Hl IHl Ri Hr IHr Hq Hp];
    intros c s v st a l' rest IN HS PL PU A; split_enc_in A.
  - eapply (ATOM LESSTHAN 7); eauto.
  - eapply (ATOM GREATERTHAN 9); eauto.
  - unfold meaning in M. destruct (find x (d_formulas (fst d))) as [t|] eqn:FX; [|discriminate]. cbn [option_map] in M.
    each IN; (shift; reduce [(38, VStr (T := T) x)]; [rewrite FX; reflexivity|]; eapply arrived; [|eassumption]; rewrite skel_clone; congruence).
  - each IN; (eapply go_shift; [exact A|vm_compute; reflexivity|vm_compute; reflexivity|]; clear A; intros c1 A;
      eapply go_reaches; [eapply IH; [| | | |exact A]; [cbn; tauto|eapply formula_top; eauto|unfold plain_token; cbn; intuition discriminate|cbn; lia]|];
      clear A c1; intros c1 t F A; change (after 31 53) with 59 in A; shift;
      reduce [(83, VNone (T := T)); (59, VTree t); (31, VNone)]; [reflexivity|];
      eapply arrived; [exact F|eassumption]).
  - each IN; (eapply go_shift; [exact A|vm_compute; reflexivity|vm_compute; reflexivity|]; clear A; intros c1 A;
      eapply go_reaches; [eapply IH; [| | | |exact A]; [cbn; tauto|exact Hp|exact PL|exact (Nat.le_trans _ _ _ PU (Nat.le_min_r _ _))]|];
      clear A c1; intros c1 t F A;
      (eapply (go_reduce d _ _ _ _ [(60, VTree t); (32, VNone)]); [cbn [app]; exact A|apply (closes 32); [cbn; tauto|apply PL|exact (Nat.le_trans _ _ _ PU (Nat.le_min_l _ _))]|vm_compute; reflexivity|reflexivity|vm_compute; reflexivity|vm_compute; reflexivity|reflexivity|vm_compute; reflexivity|clear_at; intros ? ?]);
      eapply arrived; [|eassumption]; cbn [skel]; rewrite F; reflexivity).
  - each IN; (eapply go_shift; [exact A|vm_compute; reflexivity|vm_compute; reflexivity|]; clear A; intros c1 A;
      assert (NE : exists b m, map enc ts ++ a :: l' = b :: m) by (destruct ts; cbn; eauto);
      destruct NE as (b & m & NE); rewrite NE in A;
      eapply range_run; [exact Ri| |exact A|]; [cbn; tauto|]; clear A; rewrite <- NE; clear NE b m c1; intros c1 A;
      eapply go_reaches; [eapply IH; [| | | |exact A]; [cbn; tauto|exact Hp|exact PL|exact (Nat.le_trans _ _ _ PU (Nat.le_min_r _ _))]|];
      clear A c1; intros c1 t F A;
      reduce [(88, VTree t); (63, VInt i); (34, VNone)]; [reflexivity|];
      eapply arrived; [|eassumption]; cbn [skel]; rewrite F; reflexivity).
  - each IN; (eapply go_shift; [exact A|vm_compute; reflexivity|vm_compute; reflexivity|]; clear A; intros c1 A;
      assert (NE : exists b m, map enc ts ++ a :: l' = b :: m) by (destruct ts; cbn; eauto);
      destruct NE as (b & m & NE); rewrite NE in A;
      eapply range_run; [exact Ri| |exact A|]; [cbn; tauto|]; clear A; rewrite <- NE; clear NE b m c1; intros c1 A;
      eapply go_reaches; [eapply IH; [| | | |exact A]; [cbn; tauto|exact Hp|exact PL|exact (Nat.le_trans _ _ _ PU (Nat.le_min_r _ _))]|];
      clear A c1; intros c1 t F A;
      reduce [(87, VTree t); (62, VInt i); (33, VNone)]; [reflexivity|];
      eapply arrived; [|eassumption]; cbn [skel]; rewrite F; reflexivity).
  - (* and, or, implies *)
    assert (KT : plain_token (num (KBin o))) by (destruct o; unfold plain_token; cbn; intuition discriminate).
    assert (KP : pull (num (KBin o)) = reach actual o) by (destruct o; reflexivity).
    eapply go_reaches; [eapply (IHl _ _ _ _ (enc (KBin o))); [exact IN|lia|exact KT| |exact A]; cbn [fst enc]; lia|]. clear A. intros c1 t F A.
    set (s' := match o with And => 72 | Or => 73 | Implies => 74 end).
    assert (SH : next_action (after s 53) (num (KBin o)) = Ok (Shift s') /\ blind (after s 53) = Ok false).
    { subst s'. assert (HS' : (held s < reach actual o)%nat) by lia. clear - HS' IN. destruct o; each IN; (cbn in HS'; exfalso; lia) || (vm_compute; split; reflexivity). }
    destruct SH as (SH & BL).
    eapply go_shift; [exact A|exact SH|exact BL|]. clear A c1. intros c1 A.
    eapply go_reaches; [eapply IHr; [| |exact PL| |exact A]; [destruct o; cbn; tauto|destruct o; cbn in Hp |- *; lia|lia]|].
    clear A c1. intros c1 t' F' A.
    destruct o; subst s';
      each IN; ((eapply (go_reduce d _ _ _ _ [_; _; _]); [cbn [app]; exact A|apply (closes _ _); [cbn; tauto|apply PL|exact (Nat.le_trans _ _ _ PU (Nat.le_min_l _ _))]|vm_compute; reflexivity|reflexivity|vm_compute; reflexivity|vm_compute; reflexivity|reflexivity|vm_compute; reflexivity|clear_at; intros ? ?]);
      eapply arrived; [|eassumption]; cbn [skel join]; rewrite F, F'; reflexivity).
  - assert (KT : plain_token 15) by (unfold plain_token; cbn; intuition discriminate).
    eapply go_reaches; [eapply (IHl _ _ _ _ (enc KUntil)); [exact IN|lia|exact KT|exact Hq|exact A]|]. clear A. intros c1 t F A.
    assert (SH : next_action (after s 53) 15 = Ok (Shift 75) /\ blind (after s 53) = Ok false).
    { assert (HS' : (held s < reach_until actual)%nat) by lia. clear - HS' IN. each IN; (cbn in HS'; exfalso; lia) || (vm_compute; split; reflexivity). }
    destruct SH as (SH & BL).
    eapply go_shift; [exact A|exact SH|exact BL|]. clear A c1. intros c1 A.
    assert (NE : exists b m, map enc us ++ a :: l' = b :: m) by (destruct us; cbn; eauto).
    destruct NE as (b & m & NE). rewrite NE in A.
    eapply range_run; [exact Ri| |exact A|]; [cbn; tauto|]. clear A. rewrite <- NE. clear NE b m c1. intros c1 A.
    eapply go_reaches; [eapply IHr; [| |exact PL| |exact A]; [cbn; tauto|exact Hp|exact (Nat.le_trans _ _ _ PU (Nat.le_min_r _ _))]|].
    clear A c1. intros c1 t' F' A. 
    each IN; (match type of A with at_ _ _ (?x :: ?y :: ?z :: ?w :: _) _ _ => reduce [x; y; z; w] end; [reflexivity|];
      eapply arrived; [|eassumption]; cbn [skel]; rewrite F, F'; reflexivity).
Qed.
End Prec.
