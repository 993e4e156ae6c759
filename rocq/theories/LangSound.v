(** Every text the parser accepts is a text of the language. *)
From Coq Require Import List Bool String Ascii ZArith Lia.
From Verif Require Import Num Base Signal Robust Transducer TreeProof Driver Tables Parser Automaton ParserProof ParserSpec ParserTotal PrecProof LexProof LangSpec LangLex LangProof.
Import ListNotations.
Local Open Scope Z_scope.

(** ** The tables *)
Definition table_blind (s : Z) : bool :=
  match blind s with
  | Ok true => match yydefault s with
    | Ok (Reduce r) => Nat.leb 6 (limit_of r) && (negb (changes r) || (stos s <? 41)) && negb (r =? 33)
    | _ => true end
  | Ok false => forallb (fun t => match decide s t with
    | Ok (Reduce r) => Nat.leb (pull t) (limit_of r) && negb (changes r)
    | Ok (Shift s') => (stos s' =? t) && (negb (t =? 0) || (s' =? yyfinal)) && (negb (s' =? yyfinal) || (t =? 0)) && negb (t =? 1) && negb (t =? 2)
    | _ => true end) tokens
  | _ => true end.
Lemma tables_blind : forallb (fun s => (s =? yyfinal) || table_blind s) states = true.
Proof. vm_compute. reflexivity. Qed.
Definition table_edge (E : list (Z * Z)) (e : Z * Z) : bool :=
  let (b, x) := e in
  (negb (settles (stos x) && (41 <=? stos x)) || (negb (stos b =? 54) && negb (stos b =? 69) && negb (b =? yyfinal))) &&
  (negb (stos x =? 69) || (b =? 0)) &&
  (negb (stos b =? 53) || (stos x <? 41)) &&
  (negb (stos x =? 53) || forallb (fun y => Nat.eqb (pull (stos y)) 0 || Nat.ltb (holds (stos b)) (pull (stos y))) (map snd (filter (fun f => fst f =? x) E))) &&
  (negb (x =? yyfinal) || (stos b =? 69)) &&
  negb (b =? yyfinal).
Lemma tables_edge : forallb (table_edge edges) edges = true.
Proof. vm_compute. reflexivity. Qed.

Lemma blind_facts : forall s r, In s states -> s <> yyfinal -> blind s = Ok true -> yydefault s = Ok (Reduce r) ->
  (6 <= limit_of r)%nat /\ (changes r = true -> stos s < 41) /\ r <> 33.
Proof.
  intros s r S F B D. assert (H := tables_blind). rewrite forallb_forall in H. apply H in S. apply Z.eqb_neq in F. rewrite F in S. cbn [orb] in S.
  unfold table_blind in S. rewrite B, D in S. apply andb_prop in S. destruct S as [S C]. apply andb_prop in S. destruct S as [S E].
  apply Nat.leb_le in S. split; [exact S|]. split.
  - intro CH. rewrite CH in E. cbn [negb orb] in E. apply Z.ltb_lt in E. exact E.
  - apply negb_true_iff, Z.eqb_neq in C. exact C.
Qed.
Lemma sighted_facts : forall s t a, In s states -> s <> yyfinal -> blind s = Ok false -> 0 <= t < 41 -> decide s t = Ok a ->
  match a with
  | Reduce r => (pull t <= limit_of r)%nat /\ changes r = false
  | Shift s' => stos s' = t /\ (t = 0 <-> s' = yyfinal) /\ t <> 1 /\ t <> 2
  | Error => True
  end.
Proof.
  intros s t a S F B T D. assert (H := tables_blind). rewrite forallb_forall in H. apply H in S. apply Z.eqb_neq in F. rewrite F in S. cbn [orb] in S.
  unfold table_blind in S. rewrite B, forallb_forall in S. specialize (S t (proj2 (upto_in 41 t) T)). rewrite D in S. destruct a as [s'|r|]; [| |exact Logic.I].
  - apply andb_prop in S. destruct S as [S C2]. apply andb_prop in S. destruct S as [S C1]. apply andb_prop in S. destruct S as [S F2].
    apply andb_prop in S. destruct S as [S F1]. apply Z.eqb_eq in S. apply negb_true_iff, Z.eqb_neq in C1, C2.
    split; [exact S|]. split; [|auto]. split; intro E; subst.
    + rewrite E in F1. cbn [Z.eqb negb orb] in F1. apply Z.eqb_eq in F1. exact F1.
    + reflexivity.
  - apply andb_prop in S. destruct S as [S C]. apply Nat.leb_le in S. apply negb_true_iff in C. auto.
Qed.
Lemma edges_facts : forall E0 b x, forallb (table_edge E0) E0 = true -> In (b, x) E0 ->
  (settles (stos x) = true -> 41 <= stos x -> stos b <> 54 /\ stos b <> 69 /\ b <> yyfinal) /\
  (stos x = 69 -> b = 0) /\
  (stos b = 53 -> stos x < 41) /\
  (stos x = 53 -> forall y, In (x, y) E0 -> (0 < pull (stos y) -> holds (stos b) < pull (stos y))%nat) /\
  (x = yyfinal -> stos b = 69) /\ b <> yyfinal.
Proof.
  intros E0 b x H E. rewrite forallb_forall in H. apply H in E. cbn [table_edge] in E.
  apply andb_prop in E. destruct E as [E G6]. apply andb_prop in E. destruct E as [E G5]. apply andb_prop in E. destruct E as [E G4].
  apply andb_prop in E. destruct E as [E G3]. apply andb_prop in E. destruct E as [G1 G2].
  repeat match goal with |- _ /\ _ => split end.
  - intros SE GE. rewrite SE in G1. apply Z.leb_le in GE. rewrite GE in G1. cbn [andb negb orb] in G1.
    apply andb_prop in G1. destruct G1 as [G1 A3]. apply andb_prop in G1. destruct G1 as [A1 A2].
    apply negb_true_iff, Z.eqb_neq in A1, A2, A3. auto.
  - intro A. rewrite A in G2. cbn [Z.eqb Pos.eqb negb orb] in G2. apply Z.eqb_eq in G2. exact G2.
  - intro A. rewrite A in G3. cbn [Z.eqb Pos.eqb negb orb] in G3. apply Z.ltb_lt in G3. exact G3.
  - intros A y Y P. rewrite A in G4. cbn [Z.eqb Pos.eqb negb orb] in G4. rewrite forallb_forall in G4.
    assert (I : In y (map snd (filter (fun f => fst f =? x) E0))).
    { apply in_map_iff. exists (x, y). split; [reflexivity|]. apply filter_In. split; [exact Y|]. apply Z.eqb_refl. }
    apply G4, orb_prop in I. destruct I as [I|I]; [apply Nat.eqb_eq in I; lia|apply Nat.ltb_lt in I; exact I].
  - intro A. apply Z.eqb_eq in A. rewrite A in G5. cbn [negb orb] in G5. apply Z.eqb_eq in G5. exact G5.
  - apply negb_true_iff, Z.eqb_neq in G6. exact G6.
Qed.

Lemma edge_facts : forall b x, In (b, x) edges ->
  (settles (stos x) = true -> 41 <= stos x -> stos b <> 54 /\ stos b <> 69 /\ b <> yyfinal) /\
  (stos x = 69 -> b = 0) /\
  (stos b = 53 -> stos x < 41) /\
  (stos x = 53 -> forall y, In (x, y) edges -> (0 < pull (stos y) -> holds (stos b) < pull (stos y))%nat) /\
  (x = yyfinal -> stos b = 69) /\ b <> yyfinal.
Proof. intros b x. exact (edges_facts edges b x tables_edge). Qed.

Section Sound.
Context {T : Type} {N : Num T}.
Variable value : string -> option T.
Notation sval := (sval (T := T)).
Notation conf := (conf (T := T)).
Notation parsed := (parsed (T := T)).
Notation item := (item (T := T)).
Variable d0 : parsed.
Variable s0 : string.
Notation shape := (shape value d0).
Notation means := (means value d0).

Lemma wnum_range : forall w, 3 <= wnum w < 41.
Proof. intros [k| | | | | | | | | | | | | ]; cbn [wnum]; try lia. destruct k as [ | | | | | | | | | | | | |o| | | | | | | ]; cbn [num]; try lia. destruct o; cbn; lia. Qed.

Lemma scanned_snoc : forall l s (d : parsed) g w k r, scanned l s (g ++ w ++ r) -> gap g -> spells_word d k w -> longest w r -> scanned (l ++ [(d, k)]) s r.
Proof.
  induction l as [|[d1 k1] l IH]; intros s d g w k r H G SP L; inversion H; subst; cbn [app].
  - apply Sc_word; auto. constructor.
  - apply Sc_word; auto. eapply IH; eauto.
Qed.

Definition nxt (c : conf) : look := match c_la c with Some (tok, _) => Ahead tok | None => Unread end.
Definition ended (l : list item) : Prop := exists rest, scanned l s0 rest /\ ends rest.
Definition ahead (l : list item) (s : parsed) (tok : Z) (v : sval) (rest : string) : Prop :=
  tok = 2 \/ (tok = 0 /\ ended l) \/ exists w, wnum w = tok /\ wval w = v /\ scanned (l ++ [(s, w)]) s0 rest.
Definition sound (c : conf) : Prop := exists l s,
  shape (c_stack c) (nxt c) l s (c_d c) /\
  match c_la c with
  | Some (tok, v) => top (c_stack c) <> yyfinal /\ 41 <= stos (top (c_stack c)) /\ ahead l s tok v (c_in c)
  | None => (top (c_stack c) = yyfinal /\ ended l) \/ (top (c_stack c) <> yyfinal /\ s = c_d c /\ scanned l s0 (c_in c))
  end.

Lemma ahead_range : forall l s tok v rest, ahead l s tok v rest -> 0 <= tok < 41.
Proof. intros l s tok v rest [->|[(-> & _)|(w & <- & _)]]; try lia. assert (H := wnum_range w). lia. Qed.

Lemma look_ahead : forall l (d : parsed) s k v r, scanned l s0 s -> yylex d s = (k, v, r) -> ahead l d (yytranslate k) v r.
Proof.
  intros l d s k v r SC Y. apply yylex_word in Y. destruct Y as [(g & x & w & G & -> & SP & L & WN & WV)|[(K & E)|K]].
  - right. right. exists x. split; [exact WN|]. split; [exact WV|]. eapply scanned_snoc; eauto.
  - right. left. split; [exact K|]. exists s. auto.
  - left. exact K.
Qed.

(** A shift. *)
Lemma shape_pushed : forall st tok y l s d, shape st (Ahead tok) l s d -> In (top st, y) edges -> stos y = tok -> shape st (Pushed tok) l s d.
Proof.
  intros st tok y l s d H ED EY. destruct (Z.eq_dec (stos (top st)) 53) as [E|NE]; [|eapply shape_nx; eauto].
  inversion H as [v nx|x v p w st' nx l1 s1 d1 l2 s' d' H' ED' M]; subst; [constructor|]. cbn [top] in *. eapply Sh_push; [exact H'|exact ED'|].
  rewrite E in M |- *. destruct M as (A & B & C & ws & D & ts & t & p0 & q & E1 & E2 & E3 & E4 & E5).
  repeat (split; [assumption|]). exists ws. split; auto. exists ts, t, p0, q. repeat (split; [assumption|]).
  intro P. destruct (edge_facts _ _ ED') as (_ & _ & _ & Q & _). apply (Q E y ED P).
Qed.
Lemma shift_sound : forall st tok y v l s d, shape st (Ahead tok) l s d -> In (top st, y) edges -> stos y = tok -> tok <> 2 ->
  (tok = 0 <-> y = yyfinal) ->
  forall rest, ahead l s tok v rest -> sound (mkC ((y, v) :: st) None rest d).
Proof.
  intros st tok y v l s d H ED EY N2 FI rest A. assert (P := shape_pushed _ _ _ _ _ _ H ED EY).
  assert (L := shape_linked _ _ _ _ _ _ _ H). destruct st as [|[p w0] st]; [destruct L|]. cbn [top] in ED.
  destruct A as [A|[(A & EN)|(w & WN & WV & SC)]]; [contradiction| |].
  - exists (l ++ []), s. cbn [c_stack c_la c_in c_d nxt top]. split.
    + eapply Sh_push; [rewrite EY; exact P|exact ED|]. rewrite EY, A. unfold LangProof.means. cbn [Z.eqb]. auto.
    + left. split; [apply FI; exact A|]. rewrite app_nil_r. exact EN.
  - exists (l ++ [(s, w)]), d. cbn [c_stack c_la c_in c_d nxt top]. assert (R := wnum_range w). split.
    + eapply Sh_push; [rewrite EY; exact P|exact ED|]. rewrite EY. unfold LangProof.means.
      replace (tok =? 0) with false by (symmetry; apply Z.eqb_neq; lia). replace (tok <? 41) with true by (symmetry; apply Z.ltb_lt; lia).
      exists w. auto.
    + right. split; [rewrite <- FI; lia|]. auto.
Qed.

(** A reduction. *)
Lemma rule_lhs : forall r lhs rhs, rule r = Some (lhs, rhs) -> r <> 1 -> 41 <= lhs /\ (lhs = 54 -> r = 33) /\ (lhs = 69 -> 59 <= r /\ changes r = false).
Proof.
  intros r lhs rhs R R1. apply rule_in in R. cbn [grammar In] in R.
  repeat match type of R with _ \/ _ => destruct R as [R|R]; [injection R as <- <- <-; try (exfalso; apply R1; reflexivity); (split; [lia|split; intro; try lia; try (split; [lia|reflexivity]); congruence])|] | False => destruct R end.
Qed.
Lemma rule_base : forall r lhs rhs b x, rule r = Some (lhs, rhs) -> lhs = 69 -> hd 0 rhs <> 69 -> In (b, x) edges -> stos x = lhs -> b = 0.
Proof. intros r lhs rhs b x R E _ ED X. destruct (edge_facts _ _ ED) as (_ & A & _). apply A. congruence. Qed.
Lemma act_same : forall r rhs vs d x d', rule r = Some (69, rhs) -> act value r vs d = Ok (Some (x, d')) -> d' = d.
Proof.
  intros r rhs vs d x d' R A. apply rule_in in R. cbn [grammar In] in R.
  repeat match type of R with _ \/ _ => destruct R as [R|R]; [try discriminate R; injection R as <- <-; cbn [act] in A;
    repeat match type of A with context [match ?v with _ => _ end] => destruct v; try discriminate A end; injection A; auto|] | False => destruct R end.
Qed.

Lemma reduce_sound : forall st la rest d r lhs rhs l s o, shape st (match la with Some (tok, _) => Ahead tok | None => Unread end) l s d ->
  rule r = Some (lhs, rhs) -> r <> 1 -> spells edges (rev rhs) lhs (top st) = true -> tab yyr1 r = Ok lhs -> tab yyr2 r = Ok (Z.of_nat (List.length rhs)) ->
  allowed r (match la with Some (tok, _) => Ahead tok | None => Unread end) ->
  match la with
  | Some (tok, v) => changes r = false /\ ahead l s tok v rest
  | None => r <> 33 /\ s = d /\ scanned l s0 rest
  end ->
  reduce value (mkC st la rest d) r = Ok o ->
  match o with Next c => sound c | Return b _ => b = false end.
Proof.
  intros st la rest d r lhs rhs l s o H R R1 SP T1 T2 AL LA RED. unfold reduce in RED. rewrite T1, T2 in RED. cbn [bind c_stack c_la c_in c_d] in RED.
  rewrite Nat2Z.id, <- (rev_length rhs) in RED.
  destruct (peel _ _ _ _ _ _ _ _ _ H SP) as (b & v & st' & x & nx' & l1 & l2 & s1 & d1 & SK & SH & -> & SG & GO & ED & SX).
  rewrite SK, GO in RED. cbn [bind] in RED.
  destruct (act value r (rev (map snd (firstn (List.length (rev rhs)) st))) d) as [[[y d']|]| | | |] eqn:ACT; cbn [bind] in RED; try discriminate RED;
    injection RED as <-; [|reflexivity].
  destruct (rule_lhs _ _ _ R R1) as (GE & L54 & L69). destruct (edge_facts _ _ ED) as (EF1 & EF2 & EF3 & EF4 & EF5 & EF6).
  assert (NX : x <> yyfinal) by (intro; subst x; change (stos yyfinal) with 0 in SX; lia).
  assert (N53 : stos (top ((b, v) :: st')) <> 53) by (cbn [top]; intro E; apply EF3 in E; lia).
  assert (SE : settles lhs = true -> s1 = d1).
  { intro E. rewrite <- SX in E. destruct (EF1 E) as (A & B & C); [lia|]. eapply shape_settled; [exact SH|exact C|exact A|exact B]. }
  assert (BA : lhs = 69 -> hd 0 rhs <> 69 -> s1 = d0 /\ d1 = d0).
  { intros E _. rewrite <- SX in E. apply EF2 in E. subst b. destruct (shape_zero _ _ _ _ _ _ _ SH eq_refl) as (_ & A & B). auto. }
  destruct (rule_means _ _ _ _ _ _ _ _ _ _ _ _ _ _ _ R R1 SG ACT SE BA AL) as (s' & M & CH).
  exists (l1 ++ l2), s'. unfold nxt. cbn [c_stack c_la c_in c_d top].
  assert (NEW : forall nx, means lhs (stos b) nx s1 d1 l2 y s' d' -> shape ((x, y) :: (b, v) :: st') nx (l1 ++ l2) s' d').
  { intros nx M'. eapply Sh_push; [eapply shape_nx; [exact N53|exact SH]|exact ED|]. rewrite SX. exact M'. }
  destruct la as [[tok w]|].
  - destruct LA as (CC & A). rewrite (CH CC) in *. split; [apply NEW; exact M|]. split; [exact NX|]. split; [lia|exact A].
  - destruct LA as (N33 & -> & SC). split; [apply NEW; exact M|]. right. split; [exact NX|]. split; [|exact SC].
    destruct (Z.eq_dec lhs 69) as [E|NE].
    + destruct (L69 E) as (_ & CC). rewrite (CH CC). subst lhs. symmetry. rewrite E in R. eapply act_same; eauto.
    + assert (NE' : lhs <> 54) by (intro E; apply N33; auto).
      eapply shape_settled; [apply NEW; exact M|cbn [top]; exact NX|cbn [top]; congruence|cbn [top]; congruence].
Qed.

Lemma pstep_sound : forall c o, sound c -> pstep value c = Ok o ->
  match o with Next c' => sound c' | Return b d => b = true -> accepted value d0 s0 d end.
Proof.
  intros [st la rest d] o (l & s & H & LA) P. unfold nxt in H. cbn [c_stack c_la c_in c_d] in *.
  assert (L := shape_linked _ _ _ _ _ _ _ H). assert (TS := linked_states _ L).
  destruct st as [|[q v] st]; [destruct L|]. cbn [top] in *. unfold pstep in P. cbn [c_stack c_la c_in c_d] in P.
  destruct (q =? yyfinal) eqn:QF.
  - injection P as <-. intros _. apply Z.eqb_eq in QF. subst q. destruct la as [[tok w]|]; [destruct LA as (A & _); congruence|].
    destruct LA as [(_ & EN)|(A & _)]; [|congruence].
    inversion H as [v0 nx|x v0 p w st' nx l1 s1 d1 l2 s' d' H' ED M]; subst.
    destruct (edge_facts _ _ ED) as (_ & _ & _ & _ & E69 & NF). specialize (E69 eq_refl).
    unfold LangProof.means in M. change (stos yyfinal =? 0) with true in M. cbn match in M. destruct M as (-> & -> & ->). rewrite app_nil_r in *.
    inversion H' as [v0 nx|x0 v0 p0 w0 st0 nx la' sa da lb s' d' H'' ED' M']; subst; [discriminate E69|].
    destruct (edge_facts _ _ ED') as (_ & B0 & _). specialize (B0 E69). subst p0.
    destruct (shape_zero _ _ _ _ _ _ _ H'' eq_refl) as (-> & -> & ->). rewrite E69 in M'. cbn [app] in *.
    destruct M' as (_ & _ & PR). destruct EN as (rest' & SC & EE). exists lb, s1, rest'. auto.
  - apply Z.eqb_neq in QF.
    assert (PRE : match la with Some (tok, w) => 41 <= stos q /\ ahead l s tok w rest | None => s = d /\ scanned l s0 rest end).
    { destruct la as [[tok w]|]; [tauto|]. destruct LA as [(A & _)|(_ & A)]; [contradiction|exact A]. }
    clear LA. destruct (state_total q TS) as [(B & a & D)|(B & TOT)]; rewrite B in P; cbn [bind] in P.
    + rewrite D in P. cbn [bind] in P. destruct a as [s'|r|]; try (injection P as <-; discriminate).
      destruct (acts_reduce q r TS (default_acts _ _ QF B D)) as (lhs & rhs & R & R1 & SP & T1 & T2).
      destruct (blind_facts q r TS QF B D) as (LI & CH & N33).
      eapply reduce_sound in P; [|exact H|exact R|exact R1|exact SP|exact T1|exact T2| |].
      * destruct o; [exact P|]. intros ->. discriminate P.
      * destruct la as [[tok w]|]; cbn [allowed]; [assert (Q := pull_small tok); lia|exact LI].
      * destruct la as [[tok w]|].
        -- destruct PRE as (GE & A). split; [|exact A]. destruct (changes r); auto. specialize (CH eq_refl). lia.
        -- destruct PRE. auto.
    + assert (GOAL : forall tok w rest', ahead l s tok w rest' -> shape ((q, v) :: st) (Ahead tok) l s d ->
        (a <- decide q tok ;;
          match a with
          | Shift s' => Ok (Next (mkC ((s', w) :: (q, v) :: st) None rest' d))
          | Reduce r => reduce value (mkC ((q, v) :: st) (Some (tok, w)) rest' d) r
          | Error => Ok (Return false d)
          end) = Ok o -> match o with Next c' => sound c' | Return b d => b = true -> accepted value d0 s0 d end).
      { intros tok w rest' A SH P'. assert (RG := ahead_range _ _ _ _ _ A). destruct (TOT tok RG) as (a & D). rewrite D in P'. cbn [bind] in P'.
        assert (SF := sighted_facts q tok a TS QF B RG D). assert (AC := decide_acts _ _ _ QF B RG D). destruct a as [s'|r|].
        - injection P' as <-. destruct SF as (ST & FI & _ & N2). eapply shift_sound; [exact SH| |exact ST|exact N2|exact FI|exact A]. cbn [top]. apply acts_shift; auto.
        - destruct (acts_reduce q r TS AC) as (lhs & rhs & R & R1 & SP & T1 & T2). destruct SF as (PL & CH).
          eapply (reduce_sound _ (Some (tok, w))) in P'; [|exact SH|exact R|exact R1|exact SP|exact T1|exact T2|exact PL|split; [exact CH|exact A]].
          destruct o; [exact P'|]. intros ->. discriminate P'.
        - injection P' as <-. discriminate. }
      destruct la as [[tok w]|].
      * destruct PRE as (_ & A). eapply GOAL; [exact A|exact H|exact P].
      * destruct PRE as (-> & SC). destruct (yylex d rest) as [[k w] r'] eqn:Y.
        eapply GOAL; [eapply look_ahead; [exact SC|exact Y]|apply shape_ahead; exact H|exact P].
Qed.

Lemma loop_sound : forall n c d, sound c -> parse_loop value n c = Ok (true, d) -> accepted value d0 s0 d.
Proof.
  induction n as [|n IH]; intros c d S H; [discriminate|]. cbn [parse_loop] in H.
  destruct (pstep value c) as [o| | | |] eqn:P; cbn [bind] in H; try discriminate. assert (Q := pstep_sound _ _ S P).
  destruct o as [c'|b d']; [eapply IH; eauto|]. injection H as -> ->. auto.
Qed.
Lemma start_sound : sound (mkC [(0, VNone)] None s0 d0).
Proof.
  exists [], d0. unfold nxt. cbn [c_stack c_la c_in c_d top]. split; [constructor|]. right. split; [discriminate|]. split; [reflexivity|constructor].
Qed.
End Sound.

Theorem parse_language : forall {T} {N : Num T} (value : string -> option T) n d s d', parse_string value n d s = Ok (true, d') -> accepted value d s d'.
Proof. intros T N value n d s d' H. unfold parse_string in H. eapply loop_sound; [|exact H]. apply start_sound. Qed.
