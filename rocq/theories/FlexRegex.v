(** The automaton of the generated scanner recognises the rules. *)
From Coq Require Import List Bool String Ascii ZArith Arith Lia.
From Verif Require Import Num Base Signal Robust Transducer Driver Tables Parser FlexTables Flex FlexSpec FlexProof.
Import ListNotations.
Local Open Scope string_scope.
Local Open Scope nat_scope.

(** ** Derivatives *)
Fixpoint nullable (r : regex) : bool :=
  match r with
  | Empty | Chars _ _ => false
  | Eps | Star _ => true
  | Seq a b => nullable a && nullable b
  | Alt a b => nullable a || nullable b
  end.
Definition seq' (a b : regex) : regex := match a with Empty => Empty | Eps => b | _ => Seq a b end.
Definition alt' (a b : regex) : regex := match a, b with Empty, _ => b | _, Empty => a | _, _ => Alt a b end.
Fixpoint deriv (c : ascii) (r : regex) : regex :=
  match r with
  | Empty | Eps => Empty
  | Chars but l => if in_set but l c then Eps else Empty
  | Seq a b => alt' (seq' (deriv c a) b) (if nullable a then deriv c b else Empty)
  | Alt a b => alt' (deriv c a) (deriv c b)
  | Star a => seq' (deriv c a) (Star a)
  end.
Lemma no_empty : forall s, ~ matches Empty s. Proof. intros s H. inversion H. Qed.
Lemma eps_inv : forall s, matches Eps s -> s = "". Proof. intros s H. inversion H. reflexivity. Qed.
Lemma seq_inv : forall a b s, matches (Seq a b) s -> exists s1 s2, s = s1 ++ s2 /\ matches a s1 /\ matches b s2.
Proof. intros a b s H. inversion H; subst; eauto. Qed.
Lemma seq'_ok : forall a b s, matches (seq' a b) s <-> matches (Seq a b) s.
Proof.
  intros a b s. destruct a; cbn [seq']; try tauto.
  - split; intro H; [destruct (no_empty _ H)|]. apply seq_inv in H as (s1 & s2 & _ & H & _). destruct (no_empty _ H).
  - split; intro H; [apply (Ma_seq Eps b "" s); [constructor|exact H]|]. apply seq_inv in H as (s1 & s2 & -> & H & H2). apply eps_inv in H. subst. exact H2.
Qed.
Lemma alt'_ok : forall a b s, matches (alt' a b) s <-> matches a s \/ matches b s.
Proof.
  assert (E : forall s, matches Empty s <-> False) by (intro s; split; [apply no_empty|contradiction]).
  assert (A : forall a b s, matches (Alt a b) s <-> matches a s \/ matches b s).
  { intros a b s. split; [intro H; inversion H; auto|]. intros [H|H]; [apply Ma_left|apply Ma_right]; exact H. }
  intros a b s. pose proof (E s). destruct a; destruct b; cbn [alt']; rewrite ?A; tauto.
Qed.
Lemma nullable_ok : forall r, matches r "" <-> nullable r = true.
Proof.
  assert (N : forall a b : string, "" = a ++ b -> a = "" /\ b = "") by (intros [|x a] [|y b] H; try discriminate; auto).
  induction r; cbn [nullable].
  - split; [intro H; inversion H|discriminate].
  - split; [reflexivity|constructor].
  - split; [intro H; inversion H|discriminate].
  - rewrite andb_true_iff, <- IHr1, <- IHr2. split.
    + intro H. apply seq_inv in H as (s1 & s2 & E & H1 & H2). destruct (N _ _ E). subst. auto.
    + intros [H1 H2]. apply (Ma_seq r1 r2 "" ""); auto.
  - rewrite orb_true_iff, <- IHr1, <- IHr2. split; [intro H; inversion H; auto|]. intros [H|H]; [apply Ma_left|apply Ma_right]; exact H.
  - split; [reflexivity|constructor].
Qed.
Lemma star_cons : forall a c s, matches (Star a) (String c s) -> exists s1 s2, s = s1 ++ s2 /\ matches a (String c s1) /\ matches (Star a) s2.
Proof.
  intros a c s H. remember (Star a) as r. remember (String c s) as t. revert a c s Heqr Heqt.
  induction H as [| | | | | |a0 s1 t1 H1 _ H2 IH]; intros a' c' s' Er Et; try discriminate. injection Er as ->.
  destruct s1 as [|x s1]; cbn [append] in Et; [apply (IH a' c' s'); auto|]. injection Et as -> <-. exists s1, t1. auto.
Qed.
Lemma deriv_ok : forall r c s, matches (deriv c r) s <-> matches r (String c s).
Proof.
  induction r; intros c s; cbn [deriv].
  - split; intro H; inversion H.
  - split; intro H; inversion H.
  - destruct (in_set but l c) eqn:E; split; intro H.
    + apply eps_inv in H. subst. constructor. exact E.
    + inversion H; subst. constructor.
    + inversion H.
    + inversion H; subst. congruence.
  - rewrite alt'_ok, seq'_ok. split.
    + intros [H|H].
      * apply seq_inv in H as (s1 & s2 & -> & H1 & H2). apply IHr1 in H1. apply (Ma_seq _ _ (String c s1) s2); auto.
      * destruct (nullable r1) eqn:E; [|inversion H]. apply nullable_ok in E. apply IHr2 in H. apply (Ma_seq _ _ "" (String c s)); auto.
    + intro H. apply seq_inv in H as (s1 & s2 & E & H1 & H2). destruct s1 as [|x s1]; cbn [append] in E.
      * right. apply nullable_ok in H1. rewrite H1. apply IHr2. rewrite E. exact H2.
      * left. injection E as <- ->. constructor; [apply IHr1; exact H1|exact H2].
  - rewrite alt'_ok, IHr1, IHr2. split; [intros [H|H]; [apply Ma_left|apply Ma_right]; exact H|intro H; inversion H; auto].
  - rewrite seq'_ok. split.
    + intro H. apply seq_inv in H as (s1 & s2 & -> & H1 & H2). apply IHr in H1. apply (Ma_more r (String c s1) s2); auto.
    + intro H. apply star_cons in H as (s1 & s2 & -> & H1 & H2). constructor; [apply IHr; exact H1|exact H2].
Qed.

(** ** States stand for what is left of the rules *)
Definition left_after (w : string) : list regex :=
  fold_left (fun l c => map (deriv c) l) (list_ascii_of_string w) rules.
Definition words : list (nat * string) := 
  [(1, ""); (4, ("\")); (5, (" ")); (6, (String (ascii_of_nat 10) "")); (7, ("!")); (8, ("""")); (9, ("#")); (10, ("&")); (11, ("(")); (12, (")")); (13, ("*")); (14, ("+")); (15, (",")); (16, ("-")); (17, (".")); (18, ("0")); (19, (":")); (20, ("<")); (21, ("=")); (22, (">")); (23, ("a")); (24, ("[")); (25, ("]")); (26, ("|")); (27, (" "++" ")); (28, (""""++"a")); (29, (""""++"""")); (30, (""""++"\")); (31, ("#"++"a")); (32, ("#"++String (ascii_of_nat 10) "")); (33, ("0"++".")); (34, ("0"++"0")); (35, ("-"++">")); (36, ("."++"0")); (37, (":"++"=")); (38, ("<"++"=")); (39, ("<"++">")); (40, ("="++">")); (41, (">"++"=")); (42, ("a"++"a")); (43, ("["++"]")); (44, ("<"++">"++"_")); (45, ("["++"]"++"_"))].
Definition rest_of (q : nat) : list regex :=
  match List.find (fun p => fst p =? q) words with Some p => left_after (snd p) | None => map (fun _ => Empty) rules end.
Fixpoint ranges_eqb (a b : list (nat * nat)) : bool :=
  match a, b with
  | [], [] => true
  | (x, y) :: a, (x', y') :: b => (x =? x') && (y =? y') && ranges_eqb a b
  | _, _ => false
  end.
Fixpoint regex_eqb (a b : regex) : bool :=
  match a, b with
  | Empty, Empty | Eps, Eps => true
  | Chars x l, Chars y m => Bool.eqb x y && ranges_eqb l m
  | Seq a b, Seq a' b' | Alt a b, Alt a' b' => regex_eqb a a' && regex_eqb b b'
  | Star a, Star b => regex_eqb a b
  | _, _ => false
  end.
Fixpoint list_eqb (a b : list regex) : bool :=
  match a, b with [], [] => true | x :: a, y :: b => regex_eqb x y && list_eqb a b | _, _ => false end.
Lemma ranges_eqb_eq : forall a b, ranges_eqb a b = true -> a = b.
Proof.
  induction a as [|[x y] a IH]; intros [|[x' y'] b] H; try discriminate; [reflexivity|]. cbn [ranges_eqb] in H.
  apply andb_prop in H as [H H3]. apply andb_prop in H as [H1 H2]. apply Nat.eqb_eq in H1, H2. apply IH in H3. congruence.
Qed.
Lemma regex_eqb_eq : forall a b, regex_eqb a b = true -> a = b.
Proof.
  induction a; intros [] H; try discriminate; cbn [regex_eqb] in H; try reflexivity.
  - apply andb_prop in H as [H1 H2]. apply eqb_prop in H1. apply ranges_eqb_eq in H2. congruence.
  - apply andb_prop in H as [H1 H2]. apply IHa1 in H1. apply IHa2 in H2. congruence.
  - apply andb_prop in H as [H1 H2]. apply IHa1 in H1. apply IHa2 in H2. congruence.
  - apply IHa in H. congruence.
Qed.
Lemma list_eqb_eq : forall a b, list_eqb a b = true -> a = b.
Proof.
  induction a as [|x a IH]; intros [|y b] H; try discriminate; [reflexivity|]. cbn [list_eqb] in H. apply andb_prop in H as [H1 H2].
  apply regex_eqb_eq in H1. apply IH in H2. congruence.
Qed.
(** The number of the first rule that is complete, 0 if none is. *)
Fixpoint first_done (k : nat) (l : list regex) : nat :=
  match l with [] => 0 | r :: l' => if nullable r then k else first_done (S k) l' end.
Definition used (q : nat) : bool := state q && negb (q =? 2).
Transparent delta acc class next_state entry.
Lemma states_checked : forallb (fun q => if used q then (acc q =? first_done 1 (rest_of q)) &&
    forallb (fun c => used (delta q c) && list_eqb (map (deriv c) (rest_of q)) (rest_of (delta q c))) chars else true) (seq 0 47) = true.
Proof. vm_compute. reflexivity. Qed.
Opaque delta acc class next_state entry.
Definition after (l : list regex) (w : string) : list regex := fold_left (fun l c => map (deriv c) l) (list_ascii_of_string w) l.
Lemma used_step : forall q c, used q = true -> used (delta q c) = true /\ map (deriv c) (rest_of q) = rest_of (delta q c).
Proof.
  intros q c U. pose proof states_checked as H. rewrite forallb_forall in H.
  assert (Q : In q (seq 0 47)). { unfold used, state in U. apply in_seq. apply andb_prop in U as [U _]. apply andb_prop in U as [U _]. apply andb_prop in U as [_ U]. apply Nat.ltb_lt in U. lia. }
  specialize (H q Q). cbv beta in H. rewrite U in H. apply andb_prop in H as [_ H]. rewrite forallb_forall in H. specialize (H c (all_chars c)). cbv beta in H.
  apply andb_prop in H as [H1 H2]. apply list_eqb_eq in H2. auto.
Qed.
Lemma used_acc : forall q, used q = true -> acc q = first_done 1 (rest_of q).
Proof.
  intros q U. pose proof states_checked as H. rewrite forallb_forall in H.
  assert (Q : In q (seq 0 47)). { unfold used, state in U. apply in_seq. apply andb_prop in U as [U _]. apply andb_prop in U as [U _]. apply andb_prop in U as [_ U]. apply Nat.ltb_lt in U. lia. }
  specialize (H q Q). cbv beta in H. rewrite U in H. apply andb_prop in H as [H _]. apply Nat.eqb_eq in H. exact H.
Qed.
Lemma rest_jam : forall w, first_done 1 (after (rest_of jam) w) = 0.
Proof.
  assert (E : rest_of jam = map (fun _ => Empty) rules) by reflexivity. rewrite E. intro w. unfold after. induction (list_ascii_of_string w) as [|c l IH]; [reflexivity|exact IH].
Qed.
Lemma after_cons : forall q c w, used q = true -> after (rest_of q) (String c w) = after (rest_of (delta q c)) w.
Proof. intros q c w U. unfold after. cbn [list_ascii_of_string fold_left]. rewrite (proj2 (used_step q c U)). reflexivity. Qed.
Lemma walk_longest : forall s q i last, used q = true ->
  (exists w r, s = w ++ r /\ first_done 1 (after (rest_of q) w) <> 0 /\ acc (fst (walk q s i last)) = first_done 1 (after (rest_of q) w) /\
     snd (walk q s i last) = i + String.length w /\
     forall w' r', s = w' ++ r' -> first_done 1 (after (rest_of q) w') <> 0 -> String.length w' <= String.length w) \/
  (walk q s i last = last /\ forall w' r', s = w' ++ r' -> first_done 1 (after (rest_of q) w') = 0).
Proof.
  (* as far as the present state goes *)
  assert (H0 : forall s q i last m, used q = true -> m = marked q i last -> (forall c w r, s = String c w ++ r -> first_done 1 (after (rest_of q) (String c w)) = 0) ->
    (exists w r, s = w ++ r /\ first_done 1 (after (rest_of q) w) <> 0 /\ acc (fst m) = first_done 1 (after (rest_of q) w) /\ snd m = i + String.length w /\
     forall w' r', s = w' ++ r' -> first_done 1 (after (rest_of q) w') <> 0 -> String.length w' <= String.length w) \/
    (m = last /\ forall w' r', s = w' ++ r' -> first_done 1 (after (rest_of q) w') = 0)).
  { intros s q i last m U -> N. pose proof (used_acc q U) as A. unfold marked. destruct (acc q =? 0) eqn:Z.
    - right. split; [reflexivity|]. intros [|c w] r E; [|apply (N c w r E)]. apply Nat.eqb_eq in Z. cbn. congruence.
    - left. apply Nat.eqb_neq in Z. exists "", s. cbn [fst snd String.length]. split; [reflexivity|]. split; [cbn; congruence|]. split; [exact A|]. split; [lia|].
      intros [|c w] r E F; [cbn; lia|]. rewrite (N c w r E) in F. congruence. }
  induction s as [|c s IH]; intros q i last U; cbn [walk].
  - apply H0; auto. intros c w r E. discriminate.
  - destruct (delta q c =? jam) eqn:J.
    + apply H0; auto. intros c' w r E. injection E as <- _. rewrite (after_cons q c w U). apply Nat.eqb_eq in J. rewrite J. apply rest_jam.
    + destruct (IH (delta q c) (S i) (marked q i last) (proj1 (used_step q c U))) as [(w & r & E & F & A & L & M)|[E F]].
      * left. exists (String c w), r. rewrite (after_cons q c w U). split; [cbn; congruence|]. split; [exact F|]. split; [exact A|]. split; [cbn [String.length]; lia|].
        intros [|c' w'] r' E' F'; [cbn; lia|]. injection E' as <- E'. rewrite (after_cons q c w' U) in F'. specialize (M w' r' E' F'). cbn [String.length]. lia.
      * apply H0; auto. intros c' w r E'. injection E' as <- E'. rewrite (after_cons q c w U). apply (F w r E').
Qed.
Lemma after_ok : forall w l k, match nth_error (after l w) k with Some r => nullable r = true | None => False end <->
  match nth_error l k with Some r => matches r w | None => False end.
Proof.
  induction w as [|c w IH]; intros l k; unfold after; cbn [list_ascii_of_string fold_left].
  - destruct (nth_error l k); [|tauto]. symmetry. apply nullable_ok.
  - fold (after (map (deriv c) l) w). rewrite IH. rewrite nth_error_map. destruct (nth_error l k); cbn [option_map]; [|tauto]. apply deriv_ok.
Qed.
Lemma by_rule_ok : forall k w, by_rule k w <-> 1 <= k /\ match nth_error (after rules w) (k - 1) with Some r => nullable r = true | None => False end.
Proof.
  intros k w. unfold by_rule. rewrite after_ok. destruct (nth_error rules (k - 1)) as [r|].
  - split; [intros (r' & H1 & H2 & H3); injection H2 as ->; auto|]. intros [H1 H2]. eauto.
  - split; [intros (r' & _ & H & _); discriminate|tauto].
Qed.
Lemma first_done_ok : forall l k, 1 <= k ->
  (first_done k l = 0 /\ forall j, match nth_error l j with Some r => nullable r = false | None => True end) \/
  (k <= first_done k l /\ (exists r, nth_error l (first_done k l - k) = Some r /\ nullable r = true) /\
   forall j r, nth_error l j = Some r -> nullable r = true -> first_done k l <= k + j).
Proof.
  induction l as [|r l IH]; intros k K; cbn [first_done].
  - left. split; [reflexivity|]. intros [|j]; exact I.
  - destruct (nullable r) eqn:N.
    + right. rewrite Nat.sub_diag. split; [lia|]. split; [exists r; auto|]. intros. lia.
    + destruct (IH (S k) ltac:(lia)) as [[E F]|(E & (r' & F & G) & M)].
      * left. split; [exact E|]. intros [|j]; [exact N|apply F].
      * right. split; [lia|]. split.
        -- exists r'. replace (first_done (S k) l - k) with (S (first_done (S k) l - S k)) by lia. auto.
        -- intros [|j] r'' E' N'; [injection E' as ->; congruence|]. specialize (M j r'' E' N'). lia.
Qed.
Lemma done_rule : forall w, (first_done 1 (after rules w) = 0 /\ forall j, ~ by_rule j w) \/
  (first_done 1 (after rules w) <> 0 /\ by_rule (first_done 1 (after rules w)) w /\ forall j, by_rule j w -> first_done 1 (after rules w) <= j).
Proof.
  intro w. destruct (first_done_ok (after rules w) 1 ltac:(lia)) as [[E F]|(E & (r & F & G) & M)].
  - left. split; [exact E|]. intros j B. apply by_rule_ok in B as [B1 B2]. specialize (F (j - 1)). destruct (nth_error _ _); [congruence|exact B2].
  - right. split; [lia|]. split.
    + apply by_rule_ok. split; [exact E|]. rewrite F. exact G.
    + intros j B. apply by_rule_ok in B as [B1 B2]. destruct (nth_error (after rules w) (j - 1)) as [r'|] eqn:N; [|contradiction]. specialize (M _ _ N B2). lia.
Qed.
(** The token the automaton takes is the longest one of the first rule that has it. *)
Lemma token_taken : forall t, t <> "" -> exists w r, t = w ++ r /\ String.length w = snd (token t) /\ taken (acc (fst (token t))) w t.
Proof.
  intros t T. assert (R : rest_of 1 = rules) by reflexivity. pose proof (token_good t T) as (_ & A0 & L0 & _).
  destruct (walk_longest t 1 0 (0, 0) eq_refl) as [(w & r & E & F & A & L & M)|[E _]]; fold (token t) in *.
  - rewrite R in *. exists w, r. split; [exact E|]. split; [lia|]. split; [eauto|].
    destruct (done_rule w) as [[D _]|(_ & D & Mn)]; [congruence|]. rewrite A. split; [exact D|]. split; [exact Mn|].
    intros j w' r' E' B. apply (M w' r' E'). destruct (done_rule w') as [[_ D']|[D' _]]; [destruct (D' j B)|exact D'].
  - rewrite E in L0. cbn in L0. lia.
Qed.
(** There is one such token only. *)
Lemma taken_unique : forall s k w k' w', taken k w s -> taken k' w' s -> k = k' /\ w = w'.
Proof.
  intros s k w k' w' ((r & E) & B & M & L) ((r' & E') & B' & M' & L').
  assert (W : w = w').
  { assert (String.length w = String.length w') by (pose proof (L k' w' r' E' B'); pose proof (L' k w r E B); lia).
    rewrite E in E'. clear -E' H. revert w' E' H. induction w as [|c w IH]; intros [|c' w'] E H; cbn in *; try discriminate; [reflexivity|]. injection E as <- E. f_equal. apply IH; [exact E|lia]. }
  subst w'. split; [|reflexivity]. pose proof (M k' B'). pose proof (M' k B). lia.
Qed.
(** And one for every text. *)
Lemma taken_exists : forall s, s <> "" -> exists k w, taken k w s.
Proof. intros s H. destruct (token_taken s H) as (w & r & _ & _ & T). eauto. Qed.
