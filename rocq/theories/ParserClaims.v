(** Statements about the parser in the form in which Prop_Parser.v gives them, and its concrete cases. *)
From Coq Require Import List Bool String Ascii ZArith QArith Qcanon Lia Permutation.
From Verif Require Import Num Base Signal Robust Transducer SignalClaims TreeProof Driver Tables Parser Decimal Automaton ParserProof ParserSpec ParserTotal
  PrecProof LexProof PrintProof DeclProof TraceProof.
Import ListNotations.
Local Open Scope string_scope.
Local Open Scope Z_scope.

(** Exact decimals; the same parser on any other numbers is covered by the generic theorems. *)
Notation parse_q := (parse (T := Qc) decimal).
Definition start : parsed (T := Qc) := (new_driver, []).
Definition after_text (s : string) : parsed := match parse_q start s with Ok (_, d) => d | _ => start end.
Definition formulas (d : parsed (T := Qc)) : list (string * fml Qc) := map (fun p => (fst p, skel (snd p))) (d_formulas (fst d)).
(** x, y and a parameter a; phi is x > 0. *)
Definition d_xy : parsed (T := Qc) := after_text "signal x, y param a = 1 phi := x[t] > 0".

Lemma all_numbered : forall (T : Type) (N : Num T) (value : string -> option T) texts d tests, in_order (d_signals d) ->
  Z.of_nat (List.length (d_signals d) + list_sum (map String.length texts)) <= 32767 ->
  exists bs d' tests', parse_all value (d, tests) texts = Ok (bs, (d', tests')) /\ in_order (d_signals d') /\
    exists l, d_signals d' = (d_signals d ++ l)%list.
Proof.
  intros. destruct (parse_all_total value texts d tests) as (bs & d' & tests' & E & O & X); auto.
  exists bs, d', tests'. repeat split; auto; try apply O. apply X.
Qed.
Lemma column_position : forall (T : Type) (d : parsed (T := T)) x i, in_order (d_signals (fst d)) ->
  nth_error (map fst (d_signals (fst d))) i = Some x -> column d x = Some (S i).
Proof.
  intros T d x i O E. unfold column. rewrite (position_number _ _ _ O E). replace (0 <? Z.of_nat i + 1) with true by (symmetry; apply Z.ltb_lt; lia).
  f_equal. lia.
Qed.
Lemma unary_b : forall n, unary n <> "b".
Proof. intros [|n]; discriminate. Qed.
Lemma wrapped : exists (d d' : parsed (T := Qc)), in_order (d_signals (fst d)) /\
  parse_q d "signal b" = Ok (true, d') /\ find "b" (d_signals (fst d')) = Some (-32768).
Proof.
  remember (Z.to_nat 32767) as n eqn:EN.
  exists (with_signals start (many n)), (with_signals start (add_signal (many n) "b")).
  assert (F : find "b" (many n) = None).
  { apply (proj2 (find_none_notin decimal Z "b" (many n))). intro H. apply in_map_iff in H. destruct H as (p & E & I). apply in_map_iff in I. destruct I as (k & <- & _). cbn [fst] in E. now apply (unary_b k). }
  split; [apply many_in_order|]. split.
  - apply (declare_one decimal (with_signals start (many n)) "b").
    + exists "b"%char, "". repeat split.
    + split; [vm_compute; intuition discriminate|]. repeat split; auto. 
  - cbn [with_signals fst]. unfold add_signal. rewrite F. change (d_signals (set_signals_of _ ?m)) with m.
    rewrite many_length, EN.
    assert (A : forall m v, find "b" m = None -> find "b" (m ++ [("b", v)])%list = Some (v : Z)).
    { induction m as [|[k w] m IH]; intros v H; [reflexivity|]. cbn [find app] in H |- *. destruct (String.eqb "b" k); [discriminate|auto]. }
    rewrite <- EN. rewrite A by exact F. rewrite EN. vm_compute. reflexivity.
Qed.

(** A text of the usual grammar. *)
Ltac ident := match goal with |- identifier (String ?c ?r) => exists c, r; split; [reflexivity|split; reflexivity] end.
Lemma C37_wrong : exists ts s f p q f', text (fst d_xy) ts s /\
  formula decimal (column d_xy) (meaning d_xy) usual ts f p q /\ f' <> f /\
  exists d', parse_q d_xy ("psi :=" ++ s) = Ok (true, d') /\ find "psi" (formulas d') = Some f'.
Proof.
  set (g := FAtom (FSig "x" 1) GREATERTHAN (FConst None (q 0)) : fml Qc).
  exists [KPhi "phi"; KBin And; KPhi "phi"; KBin Or; KPhi "phi"], " phi and phi or phi",
    (FOr (FAnd g g) g).
  do 2 eexists. exists (FAnd g (FOr g g)). split; [|split; [|split]].
  - assert (P : spelling (fst d_xy) (KPhi "phi") "phi").
    { apply Sp_phi; [ident|vm_compute; intuition discriminate|vm_compute; discriminate]. }
    assert (SP : gap " ") by (repeat constructor).
    change " phi and phi or phi" with (" " ++ "phi" ++ " " ++ "and" ++ " " ++ "phi" ++ " " ++ "or" ++ " " ++ "phi" ++ "").
    repeat (apply X_tok; [exact SP|first [exact P|apply Sp_fixed; vm_compute; tauto]| |exact eq_refl || exact I]). constructor. constructor.
  - assert (P : formula decimal (column d_xy) (meaning d_xy) usual [KPhi "phi"] g closed closed) by (apply F_name; vm_compute; reflexivity).
    eapply (F_bin _ _ _ usual Or [KPhi "phi"; KBin And; KPhi "phi"] (FAnd g g) _ _ [KPhi "phi"] g).
    + eapply (F_bin _ _ _ usual And [KPhi "phi"] g _ _ [KPhi "phi"] g _ _ P P); vm_compute; lia.
    + exact P.
    + vm_compute. lia.
    + vm_compute. lia.
  - discriminate.
  - eexists. split; vm_compute; reflexivity.
Qed.

(** Formulas that the parser itself built, and that come back as another formula. *)
Definition round_trip (s : string) : Prop :=
  exists d1 f, parse_q d_xy ("psi := " ++ s) = Ok (true, d1) /\ find "psi" (formulas d1) = Some f /\
    exists d2 f', parse_q d1 ("chi := " ++ print show6 f) = Ok (true, d2) /\ find "chi" (formulas d2) = Some f' /\ f' <> f.
(** And formulas whose text is not accepted. *)
Definition no_trip (s : string) : Prop :=
  exists d1 f d2, parse_q d_xy ("psi := " ++ s) = Ok (true, d1) /\ find "psi" (formulas d1) = Some f /\
    parse_q d1 ("chi := " ++ print show6 f) = Ok (false, d2).
Ltac computed := vm_compute; reflexivity.
Ltac goes_wrong := do 2 eexists; split; [computed|]; split; [computed|]; do 2 eexists; split; [computed|]; split; [computed|].
Lemma lost : round_trip "not (phi and y[t] > 0)" /\ round_trip "(phi and y[t] > 0) or phi" /\
  round_trip "x[t] * (y[t] * a) > 0" /\ round_trip "x[t] > 1.2345678".
Proof.
  split; [|split; [|split]]; goes_wrong; discriminate.
Qed.
Lemma rejected : no_trip "x[t] - 1 > 0" /\ no_trip "x[t] > 0.00001" /\ no_trip "x[t] * (abs(y[t])) > 0".
Proof.
  split; [|split]; (do 3 eexists; split; [computed|]; split; [computed|]; computed).
Qed.
Lemma redefined : exists d1 d2 f1 f2, parse_q d_xy "psi := phi" = Ok (true, d1) /\ parse_q d_xy "psi := phi psi := not phi" = Ok (true, d2) /\
  formulas d1 = (formulas d_xy ++ [("psi", f1)])%list /\ formulas d2 = (formulas d_xy ++ [("psi", f2)])%list /\ f1 <> f2.
Proof.
  do 4 eexists. split; [computed|]. split; [computed|]. split; [computed|]. split; [computed|]. discriminate.
Qed.

Lemma trace_dropped : forall (T : Type) (N : Num T) (junk : T) (value : string -> option T) rows s line data fuel,
  file_text value rows s -> one_line line -> (String.length s < fuel)%nat ->
  read_trace junk value fuel (Some (s ++ line)) data = Ok (true, data ++ rows)%list.
Proof. intros T N junk value rows s line data fuel F L LT. unfold read_trace. rewrite (file_read junk value rows s F line fuel data L LT). reflexivity. Qed.
Lemma trace_read : forall (T : Type) (N : Num T) (junk : T) (value : string -> option T) rows s data fuel,
  file_text value rows s -> (String.length s < fuel)%nat ->
  read_trace junk value fuel (Some s) data = Ok (true, data ++ rows)%list.
Proof.
  intros T N junk value rows s data fuel F LT. rewrite <- (trace_dropped T N junk value rows s "" data fuel F eq_refl LT).
  f_equal. f_equal. symmetry. clear. induction s; cbn; congruence.
Qed.

Ltac number := vm_compute; f_equal; apply Qc_is_canon; reflexivity.
Lemma C40_text : file_text decimal [[q 0; q 3]; [q 1; Q2Qc (-5 # 2)]] ("0 3" ++ String newline_char ("  1.0e0 -2.5" ++ String newline_char "")).
Proof.
  assert (FI : forall s m e v, sign_text s -> mantissa m -> exponent e -> decimal (s ++ m ++ e) = Some v -> field decimal (s ++ m ++ e) v).
  { intros s m e v S M E V. split; [exists s, m, e; auto|exact V]. }
  assert (ME : exponent "") by constructor.
  constructor.
  - change "0 3" with ("" ++ ("" ++ "0" ++ "") ++ " " ++ ("" ++ ("" ++ "3" ++ ""))).
    apply Rw_more; [reflexivity| |reflexivity|discriminate|].
    + apply FI; [now left|apply Mt_int; [discriminate|reflexivity]|constructor|number].
    + apply Rw_one; [reflexivity|]. apply FI; [now left|apply Mt_int; [discriminate|reflexivity]|constructor|number].
  - constructor; [|constructor].
    change "  1.0e0 -2.5" with ("  " ++ ("" ++ ("1" ++ "." ++ "0") ++ ("e" ++ "" ++ "0")) ++ " " ++ ("" ++ ("-" ++ ("2" ++ "." ++ "5") ++ ""))).
    apply Rw_more; [reflexivity| |reflexivity|discriminate|].
    + apply FI; [now left|apply Mt_frac; [discriminate|reflexivity|reflexivity]| |number].
      apply Ex_some; [now left|now left|discriminate|reflexivity].
    + apply Rw_one; [reflexivity|]. apply FI; [now (right; right)|apply Mt_frac; [discriminate|reflexivity|reflexivity]|constructor|number].
Qed.

Lemma parse_returns : forall (T : Type) (N : Num T) (value : string -> option T) d tests s, in_order (d_signals d) ->
  Z.of_nat (List.length (d_signals d) + String.length s) <= 32767 ->
  exists b d' tests', parse value (d, tests) s = Ok (b, (d', tests')).
Proof.
  intros T N value d tests s O L. destruct (all_numbered T N value [s] d tests O) as (bs & d' & tests' & E & _).
  { cbn [map]. unfold list_sum. cbn [fold_right]. lia. }
  cbn [parse_all] in E. destruct (parse value (d, tests) s) as [[b [d1 t1]]| | | |] eqn:P; try discriminate. eauto.
Qed.
Lemma loop_same : forall (T : Type) (N : Num T) (value : string -> option T) k k' c, parse_loop value k c <> OutOfFuel -> (k <= k')%nat ->
  parse_loop value k' c = parse_loop value k c.
Proof.
  intros T N value. induction k as [|k IH]; intros [|k'] c H L; cbn [parse_loop] in *; try congruence; [lia|].
  destruct (pstep value c) as [[c'|b d']| | | |]; cbn [bind] in *; auto. apply IH; auto. lia.
Qed.
Lemma parse_terminates : forall (T : Type) (N : Num T) (value : string -> option T) d s fuel, (60 * String.length s + 60 <= fuel)%nat ->
  parse_string value fuel d s <> OutOfFuel.
Proof.
  intros T N value d s fuel L E. unfold parse_string in E. rewrite (loop_same T N value (enough s)) in E; [|apply (parse_ends value d s)|exact L].
  now apply (parse_ends value d s).
Qed.
Lemma trace_forever : forall (T : Type) (N : Num T) (junk : T) (value : string -> option T) b c r rest data,
  spaces b -> one_line (String c r) -> value "" = None -> letter c = true -> forall fuel,
  read_trace junk value fuel (Some ((b ++ String c r) ++ String newline_char rest)) data = OutOfFuel.
Proof.
  intros T N junk value b c r rest data B O V L fuel. unfold read_trace.
  rewrite (word_forever junk value); auto.
  - assert (X : implb (letter c) (negb (is_space c)) = true) by every c. rewrite L in X. cbn [implb] in X. now apply negb_true_iff.
  - assert (X : implb (letter c) (negb (digit c || one_of "+-." c)) = true) by every c. rewrite L in X. cbn [implb] in X. now apply negb_true_iff.
Qed.

(** Concrete cases of the grammar and of the printable formulas. *)
Lemma sp_phi : spelling (fst d_xy) (KPhi "phi") "phi".
Proof. apply Sp_phi; [ident|vm_compute; intuition discriminate|vm_compute; discriminate]. Qed.
Lemma sp_a : spelling (fst d_xy) (KParam "a") "a".
Proof. apply Sp_param; [ident|vm_compute; intuition discriminate|computed|vm_compute; discriminate]. Qed.
Lemma sp_x : spelling (fst d_xy) (KSignal "x") "x".
Proof. apply Sp_signal; [ident|vm_compute; intuition discriminate|computed|computed|vm_compute; discriminate]. Qed.
Lemma sp_y : spelling (fst d_xy) (KSignal "y") "y".
Proof. apply Sp_signal; [ident|vm_compute; intuition discriminate|computed|computed|vm_compute; discriminate]. Qed.
Lemma num : forall w, w <> "" -> all digit w -> numeral w.
Proof. intros w NE A. left. apply M_int; auto. Qed.
Ltac word := first [exact sp_phi | exact sp_a | exact sp_x | exact sp_y | apply Sp_fixed; vm_compute; tauto
  | apply Sp_number; apply num; [discriminate|reflexivity]].
Ltac token g w := apply (X_tok (fst d_xy) g _ w); [repeat constructor|word| |exact eq_refl || exact I].
Lemma C37_example : fresh (fst d_xy) (snd d_xy) "psi" /\ exists ts p r, text (fst d_xy) ts "ev_[0, a] not phi and y[t]*(2 -x[t])<a or phi" /\
  formula decimal (column d_xy) (meaning d_xy) actual ts
    (FAnd (FEv (mkI (mkB (q 0) None) (mkB n0 (Some "a"))) (FNot (FAtom (FSig "x" 1) GREATERTHAN (FConst None (q 0)))))
          (FOr (FAtom (FMult (FSig "y" 2) (FMinus (FConst None (q 2)) (FSig "x" 1))) LESSTHAN (FConst (Some "a") n0))
               (FAtom (FSig "x" 1) GREATERTHAN (FConst None (q 0))))) p r.
Proof.
  split. { split; [ident|]. repeat split; vm_compute; intuition discriminate. }
  exists ([KEv; KLBrack; KNumber "0"; KComma; KParam "a"; KRBrack; KNot; KPhi "phi"] ++ KBin And ::
    ([KSignal "y"; KLBrack; KTime; KRBrack; KTimes; KLParen; KNumber "2"; KMinus; KSignal "x"; KLBrack; KTime; KRBrack; KRParen] ++ KLess :: [KParam "a"])
     ++ KBin Or :: [KPhi "phi"])%list.
  do 2 eexists. split.
  - cbn [app].
    token "" "ev_". token "" "[". token "" "0". token "" ",". token " " "a". token "" "]". token " " "not". token " " "phi". token " " "and".
    token " " "y". token "" "[". token "" "t". token "" "]". token "" "*". token "" "(". token "" "2". token " " "-". token "" "x".
    token "" "[". token "" "t". token "" "]". token "" ")". token "" "<". token "" "a". token " " "or". token " " "phi". constructor. constructor.
  - set (g := FAtom (FSig "x" 1) GREATERTHAN (FConst None (q 0)) : fml Qc).
    assert (P : formula decimal (column d_xy) (meaning d_xy) actual [KPhi "phi"] g closed closed) by (apply F_name; vm_compute; reflexivity).
    eapply (F_bin _ _ _ actual And _ _ _ _ _ (FOr _ g)).
    + eapply (F_ev _ _ _ actual [KLBrack; KNumber "0"; KComma; KParam "a"; KRBrack]).
      * apply R_comma; [|change (mkB n0 (Some "a")) with (side decimal "a"); apply L_param].
        change (mkB (q 0) None) with (side decimal "0"). apply L_number.
      * eapply F_not; [exact P|vm_compute; lia].
      * vm_compute; lia.
    + eapply (F_bin _ _ _ actual Or _ _ _ _ [KPhi "phi"] g); [|exact P| |].
      * apply F_less.
        -- apply (S_times _ _ [KSignal "y"; KLBrack; KTime; KRBrack] _ [KLParen; KNumber "2"; KMinus; KSignal "x"; KLBrack; KTime; KRBrack; KRParen]).
           ++ apply S_operand. apply O_signal. computed.
           ++ apply (O_paren _ _ [KNumber "2"; KMinus; KSignal "x"; KLBrack; KTime; KRBrack]).
              apply (S_minus _ _ [KNumber "2"] _ [KSignal "x"; KLBrack; KTime; KRBrack]).
              ** apply S_operand. change (FConst None (q 2)) with (constant decimal "2"). apply O_number.
              ** apply O_signal. computed.
        -- apply S_operand. change (FConst (Some "a") n0) with (constant decimal "a"). apply O_param.
      * vm_compute; lia.
      * vm_compute; lia.
    + vm_compute; lia.
    + vm_compute; lia.
Qed.
Lemma C38_example : exists p q', printable decimal (column d_xy) show6 (fst d_xy) actual
  (FAnd (FNot (FEv (mkI (mkB (q 0) None) (mkB n0 (Some "a"))) (FOr (FAtom (FMult (FSig "x" 1) (FConst None (q (-3)))) GREATERTHAN (FConst None (q 0)))
                                                                   (FAtom (FAbs (FSig "y" 2)) LESSTHAN (FConst (Some "a") n0)))))
        (FAtom (FSig "x" 1) GREATERTHAN (FConst None (Q2Qc (5 # 2))))) p q'.
Proof.
  assert (X : leaf decimal (column d_xy) show6 (fst d_xy) (FSig "x" 1)) by (apply Lf_signal; [exact sp_x|computed]).
  assert (Y : leaf decimal (column d_xy) show6 (fst d_xy) (FSig "y" 2)) by (apply Lf_signal; [exact sp_y|computed]).
  assert (A : leaf decimal (column d_xy) show6 (fst d_xy) (FConst (Some "a") n0)) by (apply Lf_param; [exact sp_a|computed]).
  assert (Z0 : numeral (show6 (q 0))) by (apply (num "0"); [discriminate|reflexivity]).
  assert (V0 : decimal (show6 (q 0)) = Some (q 0)) by number.
  do 2 eexists. eapply (P_bin _ _ _ _ _ And).
  - eapply P_not.
    + eapply P_ev.
      * split; [apply Pb_number; auto|apply Pb_param; [exact sp_a|computed]].
      * eapply (P_bin _ _ _ _ _ Or).
        -- apply P_atom; [|apply Ps_leaf, Lf_number; auto]. apply Ps_times; [apply Ps_leaf; auto|].
           apply Lf_number; [|number]. right. exists "3". split; [apply M_int; [discriminate|reflexivity]|right; computed].
        -- apply P_atom; [|apply Ps_leaf; auto]. apply Ps_abs, Ps_leaf; auto.
        -- vm_compute; lia.
        -- vm_compute; lia.
      * vm_compute; lia.
    + vm_compute; lia.
  - apply P_atom; [apply Ps_leaf; auto|]. apply Ps_leaf, Lf_number; [|number]. left. apply (M_frac "2" "5"); reflexivity.
  - vm_compute; lia.
  - vm_compute; lia.
Qed.
