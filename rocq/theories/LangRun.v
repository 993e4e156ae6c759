(** Every text of the language is accepted, with the effect the language gives it. *)
From Coq Require Import List Bool String Ascii ZArith Lia.
From Verif Require Import Num Base Signal Robust Transducer TreeProof Driver Tables Parser Automaton ParserProof ParserSpec ParserTotal PrecProof LexProof LangSpec LangLex LangRead.
Import ListNotations.
Local Open Scope Z_scope.

Section Run.
Context {T : Type} {N : Num T}.
Variable value : string -> option T.
Notation sval := (sval (T := T)).
Notation conf := (conf (T := T)).
Notation parsed := (parsed (T := T)).
Notation item := (item (T := T)).
Notation steps := (steps value).
Notation formula d := (formula value (column d) (meaning d) actual).
Notation act := (act value).

Notation like := (like (T := T)).
Lemma like_refl : forall d, like d d.
Proof. intro d. repeat split. Qed.

Lemma find_shapes : forall x (m : list (string * tree T)), find x (shapes m) = option_map skel (find x m).
Proof.
  intros x m. induction m as [|[k t] m IH]; [reflexivity|]. cbn [shapes map fst snd find]. destruct (String.eqb x k); [reflexivity|exact IH].
Qed.
Lemma meaning_like : forall d e x, like d e -> meaning d x = meaning e x.
Proof. intros d e x ((_ & _ & _ & F & _) & _). unfold meaning. rewrite <- !find_shapes, F. reflexivity. Qed.
Lemma column_like : forall d e, like d e -> column d = column e.
Proof. intros d e ((_ & _ & S & _) & _). unfold column. rewrite S. reflexivity. Qed.
Lemma yylex_like : forall d e s, like d e -> yylex d s = yylex e s.
Proof.
  intros d e s ((_ & P & S & F & _) & TS). unfold yylex. destruct (skip None s) as [|c s']; [reflexivity|]. destruct (is_alpha c); [|reflexivity].
  destruct (span is_word (String c s')) as [w r]. f_equal. f_equal. unfold word_token. destruct (find w reserved); [reflexivity|].
  assert (E := f_equal (find w) F). rewrite !find_shapes in E. rewrite <- P, <- S, <- TS.
  destruct (find w (d_formulas (fst d))), (find w (d_formulas (fst e))); cbn in E; congruence.
Qed.
Lemma formula_ext : forall c m m', (forall x, m x = m' x) -> forall ts f p q, ParserSpec.formula value c m actual ts f p q -> ParserSpec.formula value c m' actual ts f p q.
Proof.
  intros c m m' E. induction 1; try (econstructor; eauto; fail). apply F_name. rewrite <- E. assumption.
Qed.
Lemma formula_like : forall d e ts f p q, like d e -> formula d ts f p q -> formula e ts f p q.
Proof. intros d e ts f p q L H. rewrite <- (column_like d e L). eapply formula_ext; [|exact H]. intro x. apply meaning_like. exact L. Qed.
Lemma like_trans : forall a b c, like a b -> like b c -> like a c.
Proof. unfold like, alike_drv. intuition congruence. Qed.

Lemma shapes_assign : forall m m' x (t t' : tree T), shapes m = shapes m' -> skel t = skel t' -> shapes (assign x t m) = shapes (assign x t' m').
Proof.
  induction m as [|[k u] m IH]; intros [|[k' u'] m'] x t t' E S; try discriminate E.
  - cbn. now rewrite S.
  - cbn [shapes map fst snd] in E. injection E as -> E1 E2. cbn [assign]. destruct (String.eqb x k'); cbn [shapes map fst snd].
    + rewrite S. f_equal. exact E2.
    + rewrite E1. f_equal. apply IH; auto.
Qed.
Lemma like_formula : forall d e x t t', like d e -> skel t = skel t' -> like (with_formula d x t) (with_formula e x t').
Proof.
  intros d e x t t' ((A & B & C & D & E & F) & G) S. split; [|exact G]. unfold with_formula, alike_drv. cbn. repeat split; auto. apply shapes_assign; auto.
Qed.
Lemma like_param : forall d e x v, like d e -> like (with_param d x v) (with_param e x v).
Proof. intros d e x v ((A & B & C & D & E & F) & G). split; [|exact G]. unfold with_param, alike_drv. cbn. rewrite B. repeat split; auto. Qed.
Lemma like_signal : forall d e x, like d e -> like (with_signal d x) (with_signal e x).
Proof. intros d e x ((A & B & C & D & E & F) & G). split; [|exact G]. unfold with_signal, alike_drv. cbn. rewrite C. repeat split; auto. Qed.
Lemma like_test : forall d e x, like d e -> like (with_test d x) (with_test e x).
Proof. intros d e x (A & G). unfold with_test. rewrite G. split; [exact A|reflexivity]. Qed.

(** ** What comes *)
Fixpoint coming (l : list item) (s : string) : Prop :=
  match l with
  | [] => ends s
  | (d, w) :: l' => exists k r, yylex d s = (k, wval w, r) /\ yytranslate k = wnum w /\ coming l' r
  end.
Lemma scanned_coming : forall l s r, scanned l s r -> ends r -> coming l s.
Proof.
  induction 1 as [s|d k g w l s r G SP LO SC IH]; intro E; [exact E|]. destruct (lex_spelled d g k w s G SP LO) as (kk & Y & WN).
  exists kk, s. split; [exact Y|]. split; [exact WN|auto].
Qed.
Definition pending (la : option (Z * sval)) (s : string) (l : list item) : Prop :=
  match la with
  | None => coming l s
  | Some (tok, v) => match l with [] => tok = 0 | (_, w) :: l' => tok = wnum w /\ v = wval w /\ coming l' s end
  end.
Definition first (l : list item) : Z := match l with [] => 0 | (_, w) :: _ => wnum w end.
Definition known_by (e : parsed) (l : list item) : Prop := match l with [] => True | (d, _) :: _ => like d e end.
Definition on (e : parsed) (c : conf) (st : list (Z * sval)) (l : list item) : Prop :=
  c_stack c = st /\ c_d c = e /\ pending (c_la c) (c_in c) l /\ (c_la c = None -> blind (top st) = Ok true \/ known_by e l).

Lemma next_read : forall e c st l, on e c st l -> blind (top st) = Ok false -> exists tok w rest,
  (match c_la c with
   | Some (tok, v0) => (tok, v0, c_in c)
   | None => let '(k, v0, r) := yylex (c_d c) (c_in c) in (yytranslate k, v0, r) end) = (tok, w, rest) /\
  tok = first l /\ pending (Some (tok, w)) rest l.
Proof.
  intros e c st l (A & B & P & K) BL. destruct (c_la c) as [[tok w]|].
  - exists tok, w, (c_in c). split; [reflexivity|]. destruct l as [|[d x] l]; cbn [pending first] in *; [auto|]. destruct P as (-> & -> & P). auto.
  - destruct (K eq_refl) as [K'|K']; [congruence|]. clear K. rename K' into K. rewrite B. destruct l as [|[d x] l]; cbn [pending coming first known_by] in *.
    + destruct (lex_ends e _ P) as (k & v & r & -> & E). exists (yytranslate k), v, r. auto.
    + destruct P as (k & r & Y & E & P). rewrite <- (yylex_like _ _ _ K), Y. exists (yytranslate k), (wval x), r. auto.
Qed.

Lemma on_shift : forall e c s v st d w l s' (P : conf -> Prop),
  on e c ((s, v) :: st) ((d, w) :: l) -> next_action s (wnum w) = Ok (Shift s') -> blind s = Ok false -> blind s' = Ok true \/ known_by e l ->
  (forall c1, on e c1 ((s', wval w) :: (s, v) :: st) l -> exists c', steps c1 c' /\ P c') ->
  exists c', steps c c' /\ P c'.
Proof.
  intros e c s v st d w l s' P O X BL K NX. unfold next_action in X.
  destruct (s =? yyfinal) eqn:F; [discriminate|]. rewrite BL in X. cbn [bind] in X.
  destruct (next_read _ _ _ _ O BL) as (tok & w' & rest & E & TK & PE). cbn [first pending] in TK, PE. destruct PE as (_ & -> & CM).
  destruct O as (A & B & _ & _).
  destruct (NX (mkC ((s', wval w) :: (s, v) :: st) None rest e)) as (c' & S & H).
  - repeat split; auto.
  - exists c'. split; auto. econstructor; [|exact S]. unfold pstep. rewrite A, F, BL. cbn [bind].
    rewrite E. cbn [bind]. rewrite TK, X. cbn [bind]. rewrite B. reflexivity.
Qed.

Lemma on_reduce : forall e e' c r lhs rhs es s v st l x s' (P : conf -> Prop),
  on e c (es ++ (s, v) :: st) l ->
  next_action (top (es ++ (s, v) :: st)) (first l) = Ok (Reduce r) -> rule r = Some (lhs, rhs) -> List.length es = List.length rhs ->
  tab yyr1 r = Ok lhs -> tab yyr2 r = Ok (Z.of_nat (List.length rhs)) ->
  act r (rev (map snd es)) e = Ok (Some (x, e')) -> lr_goto s lhs = Ok s' -> (blind (top (es ++ (s, v) :: st)) = Ok false \/ blind s' = Ok true \/ known_by e' l \/ c_la c <> None) ->
  (forall c1, on e' c1 ((s', x) :: (s, v) :: st) l -> (blind (top (es ++ (s, v) :: st)) = Ok false -> c_la c1 <> None) -> exists c', steps c1 c' /\ P c') ->
  exists c', steps c c' /\ P c'.
Proof.
  intros e e' c r lhs rhs es s v st l x s' P O X RU LE T1 T2 AC GO KB K. unfold next_action in X.
  set (stk := es ++ (s, v) :: st) in *.
  destruct (top stk =? yyfinal) eqn:F; [discriminate|].
  assert (RED : forall la inp, reduce value (mkC stk la inp e) r = Ok (Next (mkC ((s', x) :: (s, v) :: st) la inp e'))).
  { intros la inp. unfold reduce. rewrite T1, T2. cbn [bind c_stack c_d c_la c_in]. rewrite Nat2Z.id, <- LE.
    unfold stk. rewrite skipn_app, skipn_all, Nat.sub_diag. cbn [skipn app]. rewrite GO. cbn [bind].
    rewrite firstn_app, firstn_all, Nat.sub_diag. cbn [firstn]. rewrite app_nil_r, AC. reflexivity. }
  assert (TS : exists w0 st0, stk = (top stk, w0) :: st0).
  { destruct stk as [|[t0 w0] st0] eqn:E; [destruct es; discriminate|]. exists w0, st0. reflexivity. }
  destruct TS as (w0 & st0 & TS). assert (O' := O). destruct O as (A & B & PD & KN).
  destruct (blind (top stk)) as [bl| | | |] eqn:BL; try discriminate. cbn [bind] in X. destruct bl.
  - destruct (K (mkC ((s', x) :: (s, v) :: st) (c_la c) (c_in c) e')) as (c' & S & H).
    { repeat split; auto. cbn [c_la]. intro LA. destruct KB as [KB|[KB|[KB|KB]]]; [discriminate KB|left; exact KB|right; exact KB|contradiction]. }
    { discriminate. }
    exists c'. split; auto. econstructor; [|exact S]. unfold pstep. rewrite A, TS, F, BL. cbn [bind]. rewrite X. cbn [bind].
    rewrite <- (RED (c_la c) (c_in c)). destruct c as [cs cl ci cd]. cbn [c_stack c_la c_in c_d] in *. subst. reflexivity.
  - destruct (next_read _ _ _ _ O' BL) as (tok & w' & rest & E & TK & PE).
    destruct (K (mkC ((s', x) :: (s, v) :: st) (Some (tok, w')) rest e')) as (c' & S & H).
    { repeat split; auto. cbn [c_la]. discriminate. }
    { intros _. discriminate. }
    exists c'. split; auto. econstructor; [|exact S]. unfold pstep. rewrite A, TS, F, BL. cbn [bind].
    rewrite E. cbn [bind]. rewrite TK, X. cbn [bind]. rewrite <- TS, B, <- TK. apply RED.
Qed.

(** ** Formulas *)
Lemma coming_app : forall (e d : parsed) ts l s, like d e -> known_by e l -> coming (read_in d (map W ts) ++ l) s ->
  exists v rest, reads e None s (map enc ts ++ [(first l, v)]) rest /\ pending (Some (first l, v)) rest l.
Proof.
  intros e d ts. induction ts as [|t ts IH]; intros l s L K CM; cbn [map read_in app] in *.
  - destruct l as [|[d' w] l]; cbn [first known_by coming pending] in *.
    + destruct (lex_ends e s CM) as (k & v & r & Y & E). exists v, r. split; [rewrite <- E; econstructor; [exact Y|constructor]|reflexivity].
    + destruct CM as (k & r & Y & E & CM). exists (wval w), r. split; [|auto]. rewrite <- E. econstructor; [rewrite <- (yylex_like _ _ _ K); exact Y|constructor].
  - cbn [coming] in CM. destruct CM as (k & r & Y & E & CM). destruct (IH l r L K CM) as (v & rest & R & P). exists v, rest. split; [|exact P].
    cbn [wnum wval] in *. unfold enc at 1. rewrite <- E. econstructor; [rewrite <- (yylex_like _ _ _ L); exact Y|exact R].
Qed.
Lemma on_at : forall e d c st ts l, like d e -> known_by e l -> on e c st (read_in d (map W ts) ++ l) ->
  exists v rest, at_ e c st (map enc ts ++ [(first l, v)]) rest /\ pending (Some (first l, v)) rest l.
Proof.
  intros e d c st ts l L K (A & B & P & KN). destruct (c_la c) as [[tok w]|] eqn:LA; cbn [pending] in P.
  - destruct ts as [|t ts]; cbn [map read_in app] in *.
    + assert (E : tok = first l) by (destruct l as [|[d' x] l]; cbn [first]; [exact P|tauto]). subst tok. exists w, (c_in c). split; [|exact P].
      repeat split; auto. rewrite LA. constructor. constructor.
    + destruct P as (-> & -> & CM). destruct (coming_app e d ts l _ L K CM) as (v & rest & R & P). exists v, rest. split; [|exact P].
      repeat split; auto. rewrite LA. constructor. exact R.
  - destruct (coming_app e d ts l _ L K P) as (v & rest & R & P'). exists v, rest. split; [|exact P']. repeat split; auto. rewrite LA. exact R.
Qed.
Lemma at_on : forall e c st l v rest, known_by e l -> at_ e c st [(first l, v)] rest -> pending (Some (first l, v)) rest l -> on e c st l.
Proof.
  intros e c st l v rest K (A & B & R) P. repeat split; auto. remember [(first l, v)] as q eqn:Q. revert P. destruct R as [s|t s l' r R|s k v' s' l' r Y R]; intro P.
  - discriminate.
  - injection Q as -> ->. inversion R; subst. exact P.
  - injection Q as E -> ->. inversion R; subst. cbn [pending]. destruct l as [|[d w] l]; cbn [pending first known_by coming] in *.
    + destruct (yylex_word _ _ _ _ _ Y) as [(g & x & w & _ & _ & _ & _ & WN & _)|[(_ & EN)|E2]]; [exfalso; rewrite E in WN; destruct x as [k0| | | | | | | | | | | | | ]; try discriminate WN; destruct k0 as [ | | | | | | | | | | | | |o| | | | | | | ]; try discriminate WN; destruct o; discriminate WN|exact EN|rewrite E in E2; discriminate E2].
    + destruct P as (_ & -> & CM). exists k, r. rewrite (yylex_like _ _ _ K). auto.
Qed.
Lemma on_formula : forall e d ts f p q, formula d ts f p q -> like d e -> forall c s v st l (P : conf -> Prop), In s at_formula -> (held s < p)%nat ->
  plain_token (first l) -> (pull (first l) <= q)%nat -> known_by e l -> on e c ((s, v) :: st) (read_in d (map W ts) ++ l) ->
  (forall c1 t, skel t = f -> on e c1 ((after s 53, VTree t) :: (s, v) :: st) l -> exists c', steps c1 c' /\ P c') ->
  exists c', steps c c' /\ P c'.
Proof.
  intros e d ts f p q FO L c s v st l P IN HS PL PU K O NX. destruct (on_at e d c _ ts l L K O) as (w & rest & A & PE).
  apply (formula_like d e) in FO; [|exact L].
  assert (R := formula_run value e ts f p q FO c s v st (first l, w) [] rest IN HS PL PU A). destruct R as (c1 & S1 & t & SK & A1).
  destruct (NX c1 t SK) as (c' & S2 & H); [|exists c'; split; [eapply steps_trans; eauto|exact H]].
  eapply at_on; eauto.
Qed.

(** ** Statements *)
Ltac old := match goal with H : on _ _ _ _ |- _ => clear H end.
Ltac knows := first [left; vm_compute; reflexivity|right; first [assumption|exact Logic.I]].
Ltac sh := eapply on_shift; [eassumption|vm_compute; reflexivity|vm_compute; reflexivity|knows|old; intros ? ?].
Ltac rd es := eapply (on_reduce _ _ _ _ _ _ es); [cbn [app]; eassumption|vm_compute; reflexivity|vm_compute; reflexivity|reflexivity|vm_compute; reflexivity|vm_compute; reflexivity
  |cbn [Parser.act rev app map snd]; reflexivity|vm_compute; reflexivity|first [left; vm_compute; reflexivity|right; left; vm_compute; reflexivity|right; right; first [left; assumption|right; assumption]]|old; intros ? ? _].
Ltac rd1 := match goal with H : on _ _ (?a :: _) _ |- _ => rd [a] end.
Ltac rd2 := match goal with H : on _ _ (?a :: ?b :: _) _ |- _ => rd [a; b] end.
Ltac rd3 := match goal with H : on _ _ (?a :: ?b :: ?c :: _) _ |- _ => rd [a; b; c] end.
Ltac rd4 := match goal with H : on _ _ (?a :: ?b :: ?c :: ?d :: _) _ |- _ => rd [a; b; c; d] end.

Definition base (st : list (Z * sval)) : Prop := st = [(0, VNone)] \/ st = [(10, VNone); (0, VNone)].
Definition starter (l : list item) : Prop := In (first l) [0; 33; 24; 26].

Lemma define_run : forall e c st s d x ts t p q l2 (P : conf -> Prop), base st -> like d e -> formula d ts (skel t) p q -> starter l2 -> known_by e l2 ->
  on e c st (((s, KNew x) :: read_in d (KDefine :: map W ts)) ++ l2) ->
  (forall c1 e1, like (with_formula d x t) e1 -> on e1 c1 [(10, VNone); (0, VNone)] l2 -> exists c', steps c1 c' /\ P c') ->
  exists c', steps c c' /\ P c'.
Proof.
  intros e c st s d x ts t p q l2 P BA L FO ST KN O NX. cbn [read_in map app] in O. change (map (pair d) (map W ts)) with (read_in d (map W ts)) in O.
  assert (KF : forall ys, known_by e (read_in d ys ++ l2)) by (intros [|y ys]; [exact KN|exact L]). specialize (KF (map W ts)).
  assert (N48 : next_action 48 (first l2) = Ok (Reduce 33)) by (unfold starter in ST; cbn [In] in ST; destruct ST as [<-|[<-|[<-|[<-|[]]]]]; vm_compute; reflexivity).
  assert (PL : plain_token (first l2)) by (unfold starter in ST; cbn [In] in ST; unfold plain_token; destruct ST as [<-|[<-|[<-|[<-|[]]]]]; (split; [cbn; tauto|lia])).
  assert (PU : (pull (first l2) <= q)%nat) by (unfold starter in ST; cbn [In] in ST; destruct ST as [<-|[<-|[<-|[<-|[]]]]]; cbn; lia).
  assert (TOP := formula_top value d ts (skel t) p q FO).
  destruct BA as [->| ->]; (sh; sh; eapply (on_formula e d ts _ p q FO L); [| | | | |eassumption|]; [cbn; tauto|cbn; exact TOP|exact PL|exact PU|exact KN|];
    old; intros c2 t1 SK O; change (after 20 53) with 48 in O;
    (eapply (on_reduce _ _ _ _ _ _ [(48, VTree t1); (20, VNone); (4, VStr x)]); [cbn [app]; exact O|exact N48|vm_compute; reflexivity|reflexivity|vm_compute; reflexivity|vm_compute; reflexivity
      |cbn [Parser.act rev app map snd]; reflexivity|vm_compute; reflexivity|left; vm_compute; reflexivity|clear O; intros c3 O LA; specialize (LA eq_refl)]);
    assert (L1 := like_formula d e x t t1 L (eq_sym SK))).
  - rd1. eapply NX; [exact L1|eassumption].
  - rd2. eapply NX; [exact L1|eassumption].
Qed.

(** Parameters. *)
Lemma setting_run : forall e d ws k v, setting ws k v -> like d e -> forall c s st l2 (P : conf -> Prop), In s [1; 28] -> known_by (with_param e k (number_of value v)) l2 ->
  on e c ((s, VNone) :: st) (read_in d ws ++ l2) ->
  (forall c1, on (with_param e k (number_of value v)) c1 ((after s 57, VNone) :: (s, VNone) :: st) l2 -> exists c', steps c1 c' /\ P c') ->
  exists c', steps c c' /\ P c'.
Proof.
  intros e d ws k v SE L c s st l2 P IN KN O NX. destruct SE as [k v|k v]; cbn [read_in map app] in O; cbn [In] in IN; destruct IN as [<-|[<-|[]]];
    (sh; sh; sh; rd3; eapply NX; eassumption).
Qed.
Lemma params_run : forall d l d', params value d l d' -> forall e c st l2 (P : conf -> Prop), like d e -> base st ->
  (forall e', like d' e' -> known_by e' l2) ->
  on e c ((1, VNone) :: st) (l ++ l2) ->
  (forall c1 e', like d' e' -> on e' c1 ((14, VNone) :: (1, VNone) :: st) l2 -> exists c', steps c1 c' /\ P c') ->
  exists c', steps c c' /\ P c'.
Proof.
  induction 1 as [ws k v SE|l d1 ws k v PA IH SE]; intros e c st l2 P L BA KN O NX.
  - eapply setting_run; [exact SE|exact L| | |exact O|]; [cbn; tauto|apply KN, like_param, L|]. clear O c. intros c O. change (after 1 57) with 13 in O.
    assert (K := KN _ (like_param _ _ k (number_of value v) L)).
    destruct BA as [->| ->]; (rd1; eapply NX; [apply like_param, L|eassumption]).
  - rewrite <- app_assoc in O. eapply IH; [exact L|exact BA| |exact O|]; [intros e' L'; exact L'|]. clear O c e L. intros c e L O. cbn [read_in map app] in O.
    assert (W : forall e', like d1 e' -> known_by e' (read_in d1 ws ++ l2)) by (intros e' L'; destruct SE; exact L').
    assert (W' := W e L). change (map (pair d1) ws) with (read_in d1 ws) in O.
    assert (K := KN _ (like_param _ _ k (number_of value v) L)).
    destruct BA as [->| ->];
      (sh; eapply setting_run; [exact SE|exact L| | |eassumption|]; [cbn; tauto|exact K|]; old; intros c2 O; change (after 28 57) with 55 in O; rd3; eapply NX; [apply like_param, L|eassumption]).
Qed.

(** Signals. *)
Lemma signal_run : forall e d k d', signal_name d k d' -> like d e -> forall c s st l2 (P : conf -> Prop), In s [2; 29] -> (forall e', like d' e' -> known_by e' l2) ->
  on e c ((s, VNone) :: st) ((d, k) :: l2) ->
  (forall c1 e', like d' e' -> on e' c1 ((after s 63, VNone) :: (s, VNone) :: st) l2 -> exists c', steps c1 c' /\ P c') ->
  exists c', steps c c' /\ P c'.
Proof.
  intros e d k d' SI L c s st l2 P IN KN O NX. destruct SI as [x|x]; cbn [In] in IN.
  - assert (K := KN _ L). destruct IN as [<-|[<-|[]]]; (sh; rd1; eapply NX; [exact L|eassumption]).
  - assert (K := KN _ (like_signal _ _ x L)).  destruct IN as [<-|[<-|[]]]; (sh; rd1; eapply NX; [apply (like_signal _ _ x L)|eassumption]).
Qed.
Lemma signals_run : forall d l d', signals d l d' -> forall e c st l2 (P : conf -> Prop), like d e -> st = [(0, VNone)] ->
  (forall e', like d' e' -> known_by e' l2) ->
  on e c ((2, VNone) :: st) (l ++ l2) ->
  (forall c1 e', like d' e' -> on e' c1 ((18, VNone) :: (2, VNone) :: st) l2 -> exists c', steps c1 c' /\ P c') ->
  exists c', steps c c' /\ P c'.
Proof.
  induction 1 as [k d' SI|l d1 k d' SG IH SI]; intros e c st l2 P L BA KN O NX.
  - cbn [app] in O. eapply signal_run; [exact SI|exact L| | |exact O|]; [cbn; tauto|exact KN|]. clear O c. intros c e' L' O. change (after 2 63) with 17 in O.
    assert (K := KN _ L'). subst st. rd1. eapply NX; [exact L'|eassumption].
  - rewrite <- app_assoc in O. eapply IH; [exact L|exact BA| |exact O|]; [intros e' L'; exact L'|]. clear O c e L. intros c e L O. cbn [read_in map app] in O.
    subst st. sh. eapply signal_run; [exact SI|exact L| | |eassumption|]; [cbn; tauto|exact KN|]. old. intros c2 e' L' O. change (after 29 63) with 56 in O.
    assert (K := KN _ L'). rd3. eapply NX; [exact L'|eassumption].
Qed.

(** Tests. *)
Lemma bool_run : forall e d k, bool_word k -> like d e -> forall c s v st l2 (P : conf -> Prop), In s [117; 131] -> known_by e l2 ->
  on e c ((s, v) :: st) ((d, k) :: l2) ->
  (forall c1 b, on e c1 ((after s 56, VBool b) :: (s, v) :: st) l2 -> exists c', steps c1 c' /\ P c') ->
  exists c', steps c c' /\ P c'.
Proof.
  intros e d k B L c s v st l2 P IN KN O NX. cbn [In] in IN. destruct B; destruct IN as [<-|[<-|[]]]; (sh; rd1; eapply NX; eassumption).
Qed.
Lemma local_run : forall ws k x, setting ws k x -> forall e d c s st l2 (P : conf -> Prop), like d e -> In s [76; 115] -> known_by e l2 ->
  on e c ((s, VNone) :: st) (read_in d ws ++ l2) ->
  (forall c1 m, on e c1 ((after s 60, VMap [m]) :: (s, VNone) :: st) l2 -> exists c', steps c1 c' /\ P c') ->
  exists c', steps c c' /\ P c'.
Proof.
  intros ws k x SE e d c s st l2 P L IN KN O NX. cbn [In] in IN. destruct SE; cbn [read_in map app] in O; destruct IN as [<-|[<-|[]]]; (sh; sh; sh; rd3; eapply NX; eassumption).
Qed.
Lemma locals_run : forall ws, locals ws -> forall e d c st l2 (P : conf -> Prop), like d e -> known_by e l2 ->
  on e c ((76, VNone) :: st) (read_in d ws ++ l2) ->
  (forall c1 m, on e c1 ((103, VMap m) :: (76, VNone) :: st) l2 -> exists c', steps c1 c' /\ P c') ->
  exists c', steps c c' /\ P c'.
Proof.
  induction 1 as [ws k x SE|l ws k x LO IH SE]; intros e d c st l2 P L KN O NX.
  - eapply local_run; [exact SE|exact L| |exact KN|exact O|]; [cbn; tauto|]. clear O c. intros c m O. change (after 76 60) with 102 in O. rd1. eapply NX; eassumption.
  - unfold read_in in O. rewrite map_app, <- app_assoc in O. eapply IH; [exact L| |exact O|]; [exact L|]. clear O c. intros c m O. cbn [map app] in O.
    change (map (pair d) ws) with (read_in d ws) in O.
    assert (K : known_by e (read_in d ws ++ l2)) by (destruct SE; exact L). sh.
    eapply local_run; [exact SE|exact L| |exact KN|eassumption|]; [cbn; tauto|]. old. intros cc2 m2 O. change (after 115 60) with 122 in O. destruct m2 as [k2 v2].
    rd3. eapply NX; eassumption.
Qed.
Lemma local_part_run : forall ws, local_part ws -> forall e d c s v st l2 (P : conf -> Prop), like d e -> In s [49; 50] -> known_by e l2 ->
  In (first l2) [39; 33; 35; 40] ->
  on e c ((s, v) :: st) (read_in d ws ++ l2) ->
  (forall c1 m, on e c1 ((after s 62, VMap m) :: (s, v) :: st) l2 -> exists c', steps c1 c' /\ P c') ->
  exists c', steps c c' /\ P c'.
Proof.
  intros ws LP e d c s v st l2 P L IN KN FI O NX. destruct LP as [|l LO].
  - cbn [read_in map app] in O.
    assert (NA : next_action s (first l2) = Ok (Reduce 47)) by (cbn [In] in IN, FI; destruct IN as [<-|[<-|[]]]; destruct FI as [<-|[<-|[<-|[<-|[]]]]]; vm_compute; reflexivity).
    eapply (on_reduce _ _ _ _ _ _ []); [cbn [app]; exact O|exact NA|vm_compute; reflexivity|reflexivity|vm_compute; reflexivity|vm_compute; reflexivity
      |cbn [Parser.act rev app map snd]; reflexivity| | |clear O; intros c1 O _; eapply NX; exact O];
      cbn [In] in IN; destruct IN as [<-|[<-|[]]]; first [vm_compute; reflexivity|left; vm_compute; reflexivity].
  - unfold read_in in O. cbn [map app] in O. rewrite map_app, <- app_assoc in O. cbn [map app] in O. change (map (pair d) l) with (read_in d l) in O.
    assert (K : known_by e (read_in d l ++ (d, W KRParen) :: l2)) by (destruct l; exact L).
    cbn [In] in IN. destruct IN as [<-|[<-|[]]]; (sh; eapply locals_run; [exact LO|exact L| |eassumption|]; [exact L|]; old; intros cc2 m O; sh; rd3; eapply NX; eassumption).
Qed.

Lemma test_run : forall d l d', test value d l d' -> forall e c s st l2 (P : conf -> Prop), like d e -> In s [21; 52] ->
  (forall e', like d' e' -> known_by e' l2) -> In (first l2) [33; 35; 40] ->
  on e c ((s, VNone) :: st) (l ++ l2) ->
  (forall c1 e', like d' e' -> on e' c1 ((after s 66, VNone) :: (s, VNone) :: st) l2 -> exists c', steps c1 c' /\ P c') ->
  exists c', steps c c' /\ P c'.
Proof.
  intros d l d' TE e c s st l2 P L IN KN FI O NX. destruct TE as [x ps ts f p q a b k LP FO BW|x ps LP].
  - assert (TOP := formula_top value d ts f p q FO).
    assert (K := KN _ (like_test _ _ x L)).
    unfold read_in in O. cbn [map app] in O. rewrite map_app, <- app_assoc in O. cbn [map app] in O. rewrite map_app, <- app_assoc in O. cbn [map app] in O.
    change (map (pair d) ps) with (read_in d ps) in O. change (map (pair d) (map W ts)) with (read_in d (map W ts)) in O.
    match type of O with on _ _ _ (_ :: read_in d ps ++ ?t) => assert (K1 : known_by e (read_in d ps ++ t)) by (destruct ps; exact L) end.
    match type of O with on _ _ _ (_ :: read_in d ps ++ _ :: ?t) => assert (K2 : known_by e t) by (destruct ts; exact L) end.
    cbn [In] in IN. destruct IN as [<-|[<-|[]]];
      (sh; eapply local_part_run; [exact LP|exact L| | | |eassumption|]; [cbn; tauto|exact L|cbn; tauto|]; old; intros cc2 m O; change (after 49 62) with 77 in O;
       sh; eapply (on_formula e d ts _ p q FO L); [| | | | |eassumption|]; [cbn; tauto|cbn; exact TOP|unfold plain_token; cbn; intuition discriminate|cbn; lia|exact L|];
       old; intros cc3 t SK O; change (after 104 53) with 116 in O; sh; sh; sh; sh; sh;
       eapply bool_run; [exact BW|exact L| | |eassumption|]; [cbn; tauto|exact L|]; old; intros cc4 bb O; change (after 131 56) with 132 in O; sh;
       match goal with H : on _ _ (?a1 :: ?a2 :: ?a3 :: ?a4 :: ?a5 :: ?a6 :: ?a7 :: ?a8 :: ?a9 :: ?a10 :: ?a11 :: _) _ |- _ => rd [a1; a2; a3; a4; a5; a6; a7; a8; a9; a10; a11] end;
       eapply NX; [apply (like_test _ _ x L)|eassumption]).
  - assert (K := KN _ L). cbn [read_in map app] in O. change (map (pair d) ps) with (read_in d ps) in O.
    assert (K1 : known_by e (read_in d ps ++ l2)) by (destruct ps; [exact K|exact L]).
    cbn [In] in IN. destruct IN as [<-|[<-|[]]];
      (sh; eapply local_part_run; [exact LP|exact L| | | |eassumption|]; [cbn; tauto|exact K|cbn [In] in FI |- *; tauto|]; old; intros cc2 m O; change (after 50 62) with 78 in O;
       rd2; eapply NX; [exact L|eassumption]).
Qed.
Lemma test_starts : forall d l d' l2, test value d l d' -> In (first (l ++ l2)) [33; 35; 40] /\ forall e, like d e -> known_by e (l ++ l2).
Proof. intros d l d' l2 [x ps ts f p q a b k LP FO BW|x ps LP]; (split; [cbn; tauto|intros e L; exact L]). Qed.
Lemma tests_run : forall d l d', tests value d l d' -> forall e c st l2 (P : conf -> Prop), like d e ->
  (forall e', like d' e' -> known_by e' l2) -> In (first l2) [33; 35; 40] ->
  on e c ((21, VNone) :: st) (l ++ l2) ->
  (forall c1 e', like d' e' -> on e' c1 ((52, VNone) :: (21, VNone) :: st) l2 -> exists c', steps c1 c' /\ P c') ->
  exists c', steps c c' /\ P c'.
Proof.
  induction 1 as [l d' TE|l d1 l' d' TS IH TE]; intros e c st l2 P L KN FI O NX.
  - eapply test_run; [exact TE|exact L| |exact KN|exact FI|exact O|]; [cbn; tauto|]. clear O c. intros c e' L' O. change (after 21 66) with 51 in O.
    assert (K := KN _ L'). rd1. eapply NX; [exact L'|eassumption].
  - rewrite <- app_assoc in O. destruct (test_starts _ _ _ l2 TE) as (F & KF). eapply IH; [exact L|exact KF|exact F|exact O|]. clear O c e L. intros c e L O.
    eapply test_run; [exact TE|exact L| |exact KN|exact FI|exact O|]; [cbn; tauto|]. clear O c. intros c e' L' O. change (after 52 66) with 80 in O.
    assert (K := KN _ L'). rd2. eapply NX; [exact L'|eassumption].
Qed.
Lemma head_run : forall h, test_head h -> forall e d c st l2 (P : conf -> Prop), like d e -> base st -> first l2 = 39 -> known_by e l2 ->
  on e c ((3, VNone) :: st) (read_in d h ++ l2) ->
  (forall c1, on e c1 ((6, VNone) :: st) l2 -> exists c', steps c1 c' /\ P c') ->
  exists c', steps c c' /\ P c'.
Proof.
  intros h TH e d c st l2 P L BA FI KN O NX. destruct TH as [x m|x m v k BW]; cbn [read_in map app] in O.
  - assert (NA : next_action 57 (first l2) = Ok (Reduce 34)) by (rewrite FI; vm_compute; reflexivity).
    destruct BA as [->| ->]; (sh; sh; sh; match goal with H : on _ _ (?a :: ?b :: ?c :: ?d :: _) _ |- _ =>
      eapply (on_reduce _ _ _ _ _ _ [a; b; c; d]) end; [cbn [app]; eassumption|exact NA|vm_compute; reflexivity|reflexivity|vm_compute; reflexivity|vm_compute; reflexivity
      |cbn [Parser.act rev app map snd]; reflexivity|vm_compute; reflexivity|left; vm_compute; reflexivity|old; intros cc5 O _; eapply NX; exact O]).
  - destruct BA as [->| ->]; (sh; sh; sh; sh; sh; sh; eapply bool_run; [exact BW|exact L| | |eassumption|]; [cbn; tauto|exact KN|]; old; intros cc5 b O; change (after 117 56) with 126 in O;
      match goal with H : on _ _ (?a1 :: ?a2 :: ?a3 :: ?a4 :: ?a5 :: ?a6 :: ?a7 :: ?a8 :: _) _ |- _ => rd [a1; a2; a3; a4; a5; a6; a7; a8] end; eapply NX; eassumption).
Qed.

(** One statement. *)
Lemma statement_run : forall s d l s' d', statement value s d l s' d' -> forall e c st l2 (P : conf -> Prop), base st -> like d e -> starter l2 ->
  (forall e', like s' e' -> known_by e' l2) -> on e c st (l ++ l2) ->
  (forall c1 e1, like d' e1 -> on e1 c1 [(10, VNone); (0, VNone)] l2 -> exists c', steps c1 c' /\ P c') ->
  exists c', steps c c' /\ P c'.
Proof.
  intros s d l s' d' ST e c st l2 P BA L SR KN O NX. destruct ST as [x ts t p q FO|l d' PA|h l d' TH TS].
  - eapply define_run; [exact BA|exact L|exact FO|exact SR|apply KN; exact L|exact O|exact NX].
  - cbn [app] in O.
    assert (K : known_by e (l ++ l2)).
    { assert (X : known_by e (l ++ l2) /\ l <> []); [|tauto]. clear - PA L. revert l2. induction PA as [ws k v SE|l d1 ws k v PA IH SE]; intro l2.
      - destruct SE; (split; [exact L|discriminate]).
      - destruct (IH (read_in d1 (W KComma :: ws) ++ l2)) as (A & B). rewrite <- app_assoc. split; [exact A|]. destruct l; [contradiction|discriminate]. }
    assert (N14 : next_action 14 (first l2) = Ok (Reduce 42)) by (unfold starter in SR; cbn [In] in SR; destruct SR as [<-|[<-|[<-|[<-|[]]]]]; vm_compute; reflexivity).
    assert (BA' := BA). destruct BA' as [->| ->]; (sh; eapply params_run; [exact PA|exact L|exact BA|exact KN|eassumption|]; old; intros cc2 e2 L2 O; assert (KK := KN _ L2);
      (eapply (on_reduce _ _ _ _ _ _ [(14, VNone); (1, VNone)]); [cbn [app]; exact O|exact N14|vm_compute; reflexivity|reflexivity|vm_compute; reflexivity|vm_compute; reflexivity
        |cbn [Parser.act rev app map snd]; reflexivity|vm_compute; reflexivity|left; vm_compute; reflexivity|clear O; intros cc3 O _]));
      [rd1|rd2]; (eapply NX; [exact L2|eassumption]).
  - cbn [app] in O. unfold read_in in O. rewrite map_app, <- !app_assoc in O. cbn [map app] in O. change (map (pair d) h) with (read_in d h) in O.
    assert (KL : forall l2', known_by e (l ++ l2')).
    { assert (X : forall l2', known_by e (l ++ l2') /\ l <> []); [|intro; apply X]. clear - TS L. induction TS as [l d' TE|l d1 l' d' TS IH TE]; intro l2'.
      - split; [eapply test_starts; eauto|]. destruct TE; discriminate.
      - destruct (IH (l' ++ l2')) as (A & B). rewrite <- app_assoc. split; [exact A|]. destruct l; [contradiction|discriminate]. }
    match type of O with on _ _ _ (_ :: read_in d h ++ ?t) => assert (K1 : known_by e (read_in d h ++ t)) by (destruct h; exact L) end.
    specialize (KL ((d', KClose) :: l2)).
    assert (BA' := BA). destruct BA' as [->| ->]; (sh; eapply head_run; [exact TH|exact L|exact BA| | |eassumption|]; [reflexivity|exact L|]; old; intros cc2 O; sh;
      eapply tests_run; [exact TS|exact L| | |eassumption|]; [intros e' L'; exact L'|cbn; tauto|]; old; intros cc4 e4 L4 O; assert (KK := KN _ L4); sh; rd4); [rd1|rd2];
      (eapply NX; [exact L4|eassumption]).
Qed.
Lemma statement_starts : forall s d l s' d' l2, statement value s d l s' d' -> starter (l ++ l2) /\ forall e, like s e -> known_by e (l ++ l2).
Proof. intros s d l s' d' l2 [x ts t p q FO|l0 d0 PA|h l0 d0 TH TS]; (split; [unfold starter; cbn; tauto|intros e L; exact L]). Qed.

Lemma program_run : forall d0 l s d, program value d0 l s d -> forall e c l2 (P : conf -> Prop), like d0 e -> starter l2 ->
  (forall e', like s e' -> known_by e' l2) -> on e c [(0, VNone)] (l ++ l2) ->
  (forall c1 e1, like d e1 -> on e1 c1 [(10, VNone); (0, VNone)] l2 -> exists c', steps c1 c' /\ P c') ->
  exists c', steps c c' /\ P c'.
Proof.
  intros d0 l s d PR. induction PR as [l d SG|l s d ST|l s d l' s' d' PR IH ST]; intros e c l2 P L SR KN O NX.
  - cbn [app] in O.
    assert (K : known_by e (l ++ l2)).
    { assert (X : forall l2, known_by e (l ++ l2) /\ l <> []); [|apply X]. clear - SG L. induction SG as [k d' SI|l d1 k d' SG IH SI]; intro l2.
      - split; [exact L|discriminate].
      - destruct (IH (read_in d1 [W KComma; k] ++ l2)) as (A & B). rewrite <- app_assoc. split; [exact A|]. destruct l; [contradiction|discriminate]. }
    assert (N18 : next_action 18 (first l2) = Ok (Reduce 53)) by (unfold starter in SR; cbn [In] in SR; destruct SR as [<-|[<-|[<-|[<-|[]]]]]; vm_compute; reflexivity).
    sh. eapply signals_run; [exact SG|exact L|reflexivity|exact KN|eassumption|]. old. intros cc2 e2 L2 O. assert (KK := KN _ L2).
    eapply (on_reduce _ _ _ _ _ _ [(18, VNone); (2, VNone)]); [cbn [app]; exact O|exact N18|vm_compute; reflexivity|reflexivity|vm_compute; reflexivity|vm_compute; reflexivity
        |cbn [Parser.act rev app map snd]; reflexivity|vm_compute; reflexivity|left; vm_compute; reflexivity|clear O; intros cc3 O _].
    rd1. eapply NX; [exact L2|eassumption].
  - eapply statement_run; [exact ST|left; reflexivity|exact L|exact SR|exact KN|exact O|exact NX].
  - rewrite <- app_assoc in O. destruct (statement_starts _ _ _ _ _ l2 ST) as (S2 & K2). eapply IH; [exact L|exact S2|exact K2|exact O|].
    clear O c e L. intros c e L O. eapply statement_run; [exact ST|right; reflexivity|exact L|exact SR|exact KN|exact O|exact NX].
Qed.

Theorem language_parsed : forall d s d', accepted value d s d' -> exists d1, parse value d s = Ok (true, d1) /\ like d' d1.
Proof.
  intros d s d' (l & k & rest & PR & SC & EN). assert (CM := scanned_coming l s rest SC EN).
  assert (X : exists c', steps (mkC [(0, VNone)] None s d) c' /\ exists e, like d' e /\ on e c' [(10, VNone); (0, VNone)] []).
  { eapply (program_run _ _ _ _ PR d _ []); [apply like_refl|unfold starter; cbn; tauto|intros; exact Logic.I| |].
    - rewrite app_nil_r. repeat split; auto. cbn [c_la]. intros _. right.
      assert (Y : forall l2, known_by d (l ++ l2)); [|specialize (Y []); rewrite app_nil_r in Y; exact Y]. clear - PR.
      induction PR as [l d1 SG|l s1 d1 ST|l s1 d1 l' s' d' PR IH ST]; intro l2.
      + apply like_refl.
      + eapply statement_starts; [exact ST|apply like_refl].
      + rewrite <- app_assoc. apply IH.
    - intros c1 e1 L O. exists c1. split; [apply steps_refl|]. eauto. }
  destruct X as (c & ST & e & L & O). exists e. split; [|exact L].
  destruct (next_read e c _ [] O ltac:(vm_compute; reflexivity)) as (tok & w & rest' & E & TK & _). cbn [first] in TK. subst tok.
  destruct O as (A & B & _ & _).
  destruct (steps_loop value _ _ ST 2%nat (true, e)) as (n & PL).
  - cbn [parse_loop]. unfold pstep at 1. rewrite A. change (10 =? yyfinal) with false. cbv iota. change (blind 10) with (@Ok bool false). cbn [bind]. rewrite E.
    change (decide 10 0) with (Ok (Shift 22)). cbn [bind]. unfold pstep. cbn [c_stack c_d]. change (22 =? yyfinal) with true. cbn [bind]. rewrite B. reflexivity.
  - eapply parse_settled. exact PL.
Qed.
End Run.
