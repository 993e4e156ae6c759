(** The generated scanner: one token. *)
From Coq Require Import List Bool String Ascii ZArith Arith Lia.
From Verif Require Import Num Base Signal Robust Transducer Driver Tables Parser FlexTables Flex.
Import ListNotations.
Local Open Scope string_scope.
Local Open Scope nat_scope.

(** ** The tables as functions *)
Definition class (c : ascii) : nat := if Ascii.eqb c nul then 1 else nth (nat_of_ascii c) yy_ec 0.
Definition delta (q : nat) (c : ascii) : nat := match next_state chain q (class c) with Ok v => v | _ => jam end.
Definition acc (q : nat) : nat := nth q yy_accept 0.
(** The states of the automaton: not that of the end of the buffer, and with or without a successor. *)
Definition state (q : nat) : bool := (0 <? q) && (q <? 47) && negb (q =? 3).

Definition chars : list ascii := map ascii_of_nat (seq 0 256).
Lemma all_chars : forall c, In c chars.
Proof.
  intro c. unfold chars. apply in_map_iff. exists (nat_of_ascii c). split; [apply ascii_nat_embedding|]. apply in_seq.
  pose proof (nat_ascii_bounded c). lia.
Qed.
Lemma every_char : forall P : ascii -> bool, forallb P chars = true -> forall c, P c = true.
Proof. intros P H c. rewrite forallb_forall in H. apply H. apply all_chars. Qed.
Lemma every_state : forall P : nat -> bool, forallb P (filter state (seq 0 47)) = true -> forall q, state q = true -> P q = true.
Proof.
  intros P H q Q. rewrite forallb_forall in H. apply H. apply filter_In. split; [|exact Q]. apply in_seq. unfold state in Q.
  apply andb_prop in Q as [Q _]. apply andb_prop in Q as [_ Q]. apply Nat.ltb_lt in Q. lia.
Qed.
Definition ok_is (r : res nat) (v : nat) : bool := match r with Ok x => x =? v | _ => false end.
Lemma ok_is_eq : forall r v, ok_is r v = true -> r = Ok v.
Proof. intros [x| | | |] v H; try discriminate. apply Nat.eqb_eq in H. congruence. Qed.

Lemma accept_entry : forall q, state q = true -> entry yy_accept q = Ok (acc q).
Proof.
  intros q Q. apply ok_is_eq. apply (every_state (fun q => ok_is (entry yy_accept q) (acc q))); [vm_compute; reflexivity|exact Q].
Qed.
Lemma class_entry : forall c, entry yy_ec (nat_of_ascii c) = Ok (if Ascii.eqb c nul then 0 else class c).
Proof.
  intro c. apply ok_is_eq. apply (every_char (fun c => ok_is (entry yy_ec (nat_of_ascii c)) (if Ascii.eqb c nul then 0 else class c))). vm_compute. reflexivity.
Qed.
Lemma delta_entry : forall q c, state q = true -> next_state chain q (class c) = Ok (delta q c) /\ state (delta q c) = true.
Proof.
  intros q c Q.
  assert (H : forallb (fun c => ok_is (next_state chain q (class c)) (delta q c) && state (delta q c)) chars = true).
  { apply (every_state (fun q => forallb (fun c => ok_is (next_state chain q (class c)) (delta q c) && state (delta q c)) chars)); [vm_compute; reflexivity|exact Q]. }
  rewrite forallb_forall in H. specialize (H c (all_chars c)). apply andb_prop in H as [H1 H2]. split; [apply ok_is_eq; exact H1|exact H2].
Qed.
(** At the end of the buffer. *)
Lemma end_entry : forall q, state q = true -> next_state chain q 0 = Ok 3.
Proof.
  intros q Q. apply ok_is_eq. apply (every_state (fun q => ok_is (next_state chain q 0) 3)); [vm_compute; reflexivity|exact Q].
Qed.
Lemma after_end : forall c, next_state chain 3 (if Ascii.eqb c nul then 0 else class c) = Ok jam.
Proof.
  intro c. apply ok_is_eq. apply (every_char (fun c => ok_is (next_state chain 3 (if Ascii.eqb c nul then 0 else class c)) jam)). vm_compute. reflexivity.
Qed.
Lemma acc_end : forall q, state q = true -> acc q <> END_OF_BUFFER.
Proof.
  intros q Q. apply (every_state (fun q => negb (acc q =? END_OF_BUFFER))) in Q; [|vm_compute; reflexivity].
  intro C. rewrite C, Nat.eqb_refl in Q. discriminate Q.
Qed.
(** Every character alone is a token. *)
Lemma first_char : forall c, delta 1 c <> jam /\ acc (delta 1 c) <> 0.
Proof.
  intro c. assert (H : negb (delta 1 c =? jam) && negb (acc (delta 1 c) =? 0) = true).
  { apply (every_char (fun c => negb (delta 1 c =? jam) && negb (acc (delta 1 c) =? 0))). vm_compute. reflexivity. }
  apply andb_prop in H as [H1 H2]. apply negb_true_iff, Nat.eqb_neq in H1. apply negb_true_iff, Nat.eqb_neq in H2. auto.
Qed.
Global Opaque delta acc class next_state entry.

(** ** The whole text at once *)
Definition marked (q i : nat) (last : mark) : mark := if acc q =? 0 then last else (q, i).
Fixpoint walk (q : nat) (s : string) (i : nat) (last : mark) : mark :=
  match s with
  | EmptyString => marked q i last
  | String c s' => if delta q c =? jam then marked q i last else walk (delta q c) s' (S i) (marked q i last)
  end.
Fixpoint reach (q : nat) (s : string) : option nat :=
  match s with EmptyString => Some q | String c s' => if delta q c =? jam then None else reach (delta q c) s' end.

Lemma remember_ok : forall q i last, state q = true -> remember q i last = Ok (marked q i last).
Proof. intros q i last Q. unfold remember. rewrite accept_entry by exact Q. reflexivity. Qed.
Lemma get_app : forall p s, get (String.length p) (p ++ s) = match s with EmptyString => None | String c _ => Some c end.
Proof. induction p as [|a p IH]; intros s; [destruct s; reflexivity|]. cbn [append String.length get]. apply IH. Qed.
Lemma append_assoc : forall a b c : string, (a ++ b) ++ c = a ++ (b ++ c).
Proof. induction a as [|x a IH]; intros; cbn; [reflexivity|]. now rewrite IH. Qed.
Lemma append_nil_r : forall a : string, a ++ "" = a.
Proof. induction a as [|x a IH]; cbn; [reflexivity|]. now rewrite IH. Qed.
Lemma append_cons : forall (a : string) c b, a ++ String c b = (a ++ String c "") ++ b.
Proof. intros. rewrite append_assoc. reflexivity. Qed.
Lemma length_app : forall a b : string, String.length (a ++ b) = String.length a + String.length b.
Proof. induction a as [|x a IH]; intros; cbn; [reflexivity|]. now rewrite IH. Qed.
Lemma char_at_app : forall p c s, char_at (p ++ String c s) (String.length p) = Ok c.
Proof. intros. unfold char_at. rewrite get_app. reflexivity. Qed.
Lemma get_none : forall s n, String.length s <= n -> get n s = None.
Proof. induction s as [|c s IH]; intros n H; [destruct n; reflexivity|]. destruct n; cbn in *; [lia|]. apply IH. lia. Qed.
Lemma char_at_end : forall p k, k < 2 -> char_at p (String.length p + k) = Ok nul.
Proof.
  intros p k K. unfold char_at. rewrite get_none by lia. destruct (Nat.ltb_spec (String.length p + k) (String.length p + 2)); [reflexivity|lia].
Qed.
Lemma reach_state : forall s q q', state q = true -> reach q s = Some q' -> state q' = true.
Proof.
  induction s as [|c s IH]; intros q q' Q H; cbn [reach] in H; [congruence|].
  destruct (delta q c =? jam); [discriminate|]. eapply IH; [|exact H]. apply (delta_entry q c Q).
Qed.
Lemma reach_app : forall s1 s2 q, reach q (s1 ++ s2) = match reach q s1 with Some q' => reach q' s2 | None => None end.
Proof. induction s1 as [|c s1 IH]; intros s2 q; cbn [append reach]; [reflexivity|]. destruct (delta q c =? jam); auto. Qed.

(** Going over characters again. *)
Lemma previous_ok : forall s p q q' last, state q = true -> reach q s = Some q' ->
  forall r, exists last', previous_state (String.length s) (p ++ s ++ r) q (String.length p) last = Ok (q', last') /\
    forall more, walk q (s ++ more) (String.length p) last = walk q' more (String.length p + String.length s) last'.
Proof.
  induction s as [|c s IH]; intros p q q' last Q R r; cbn [reach] in R.
  - injection R as <-. exists last. cbn [previous_state String.length append]. split; [reflexivity|]. intro more. rewrite Nat.add_0_r. reflexivity.
  - destruct (delta q c =? jam) eqn:J; [discriminate|]. destruct (delta_entry q c Q) as [D1 D2].
    destruct (IH (p ++ String c "") (delta q c) q' (marked q (String.length p) last) D2 R r) as (last' & E & W). exists last'.
    cbn [String.length]. rewrite length_app in E, W. cbn [String.length] in E, W. rewrite append_assoc in E. cbn [append] in E. split.
    + cbn [previous_state append]. rewrite char_at_app. cbn [bind].
      assert (C : (if Ascii.eqb c nul then Ok 1 else entry yy_ec (nat_of_ascii c)) = Ok (class c)).
      { rewrite class_entry. Transparent class. unfold class. Opaque class. destruct (Ascii.eqb c nul); reflexivity. }
      rewrite C. cbn [bind]. rewrite remember_ok by exact Q. cbn [bind]. rewrite D1. cbn [bind]. rewrite <- Nat.add_1_r. exact E.
    + intro more. cbn [append walk]. rewrite J. rewrite <- Nat.add_1_r, W. f_equal. lia.
Qed.

(** The loop: until there is no successor, or until a NUL. *)
Definition stops (s : string) : Prop := s = "" \/ exists r, s = String nul r.
Lemma match_ok : forall s p q last fuel, state q = true -> String.length s + 2 <= fuel ->
  (s <> "" /\ exists m, yy_match fuel (p ++ s) q (String.length p) last = Ok m /\ forall more, walk q (s ++ more) (String.length p) last = m) \/
  (exists s1 s2 q', s = s1 ++ s2 /\ stops s2 /\ reach q s1 = Some q' /\
     yy_match fuel (p ++ s) q (String.length p) last = Ok (3, S (String.length p + String.length s1))).
Proof.
  assert (STOP : forall b cp q last fuel, state q = true -> char_at b cp = Ok nul -> (exists c, char_at b (S cp) = Ok c) ->
    yy_match (S (S fuel)) b q cp last = Ok (3, S cp)).
  { intros b cp q last fuel Q C1 (c & C2). cbn [yy_match]. rewrite C1. cbn [bind]. rewrite class_entry, Ascii.eqb_refl. cbn [bind].
    rewrite remember_ok by exact Q. cbn [bind]. rewrite end_entry by exact Q. cbn [bind]. change (3 =? jam) with false. cbv iota.
    rewrite C2. cbn [bind]. rewrite class_entry. cbn [bind]. Transparent entry. cbn [remember entry bind yy_accept nth_error Nat.eqb]. Opaque entry.
    rewrite after_end. reflexivity. }
  induction s as [|c s IH]; intros p q last fuel Q F.
  - right. exists "", "", q. split; [reflexivity|]. split; [left; reflexivity|]. split; [reflexivity|].
    destruct fuel as [|[|fuel]]; cbn [String.length] in F; try lia. rewrite append_nil_r. cbn [String.length]. rewrite Nat.add_0_r. apply STOP; auto.
    + rewrite <- (Nat.add_0_r (String.length p)). apply char_at_end. lia.
    + exists nul. rewrite <- Nat.add_1_r. apply char_at_end. lia.
  - destruct (Ascii.eqb c nul) eqn:Z.
    + apply Ascii.eqb_eq in Z. subst c. right. exists "", (String nul s), q. split; [reflexivity|]. split; [right; eauto|]. split; [reflexivity|].
      destruct fuel as [|[|fuel]]; cbn [String.length] in F; try lia. cbn [String.length]. rewrite Nat.add_0_r. apply STOP; auto; [apply char_at_app|].
      rewrite append_cons. destruct s as [|c s].
      * exists nul. rewrite append_nil_r. replace (S (String.length p)) with (String.length (p ++ String nul "") + 0) by (rewrite length_app; cbn; lia). apply char_at_end. lia.
      * exists c. replace (S (String.length p)) with (String.length (p ++ String nul "")) by (rewrite length_app; cbn; lia). apply char_at_app.
    + destruct fuel as [|fuel]; cbn [String.length] in F; [lia|]. destruct (delta_entry q c Q) as [D1 D2].
      cbn [yy_match]. rewrite char_at_app. cbn [bind]. rewrite class_entry, Z. cbn [bind]. rewrite remember_ok by exact Q. cbn [bind]. rewrite D1. cbn [bind].
      destruct (delta q c =? jam) eqn:J.
      * left. split; [discriminate|]. exists (marked q (String.length p) last). split; [reflexivity|]. intro more. cbn [append walk]. rewrite J. reflexivity.
      * destruct (IH (p ++ String c "") (delta q c) (marked q (String.length p) last) fuel D2 ltac:(lia)) as [(_ & m & E & W)|(s1 & s2 & q' & E1 & ST & R & E)];
          rewrite append_assoc, length_app in *; cbn [append String.length] in *.
        -- left. split; [discriminate|]. exists m. rewrite <- Nat.add_1_r. split; [exact E|]. intro more. cbn [append walk]. rewrite J, <- Nat.add_1_r. apply W.
        -- right. exists (String c s1), s2, q'. split; [rewrite E1; reflexivity|]. split; [exact ST|]. split; [cbn [reach]; rewrite J; exact R|].
           rewrite <- Nat.add_1_r. rewrite E. cbn [String.length]. do 2 f_equal. lia.
Qed.

(** The result for a text that is not empty. *)
Definition token (t : string) : mark := walk 1 t 0 (0, 0).
Lemma walk_bound : forall s q i last, fst (walk q s i last) = fst last /\ snd (walk q s i last) = snd last \/
  (i <= snd (walk q s i last) /\ snd (walk q s i last) <= i + String.length s).
Proof.
  assert (M : forall q i last, marked q i last = last \/ snd (marked q i last) = i) by (intros; unfold marked; destruct (acc q =? 0); auto).
  induction s as [|c s IH]; intros q i last; cbn [walk String.length].
  - destruct (M q i last) as [->| ->]; [auto|right; lia].
  - destruct (delta q c =? jam). { destruct (M q i last) as [->| ->]; [auto|right; lia]. }
    destruct (IH (delta q c) (S i) (marked q i last)) as [[-> ->]|H]; [|right; lia]. destruct (M q i last) as [->| ->]; [auto|right; lia].
Qed.
Lemma walk_good : forall s q i last, state q = true -> state (fst last) = true /\ acc (fst last) <> 0 \/ acc q <> 0 ->
  state (fst (walk q s i last)) = true /\ acc (fst (walk q s i last)) <> 0.
Proof.
  assert (M : forall q i last, state q = true -> state (fst last) = true /\ acc (fst last) <> 0 \/ acc q <> 0 ->
    state (fst (marked q i last)) = true /\ acc (fst (marked q i last)) <> 0).
  { intros q i last Q H. unfold marked. destruct (Nat.eqb_spec (acc q) 0); cbn [fst]; [|auto]. destruct H; [auto|contradiction]. }
  induction s as [|c s IH]; intros q i last Q H; cbn [walk]; [auto|]. destruct (delta q c =? jam); [auto|]. apply IH; [apply (delta_entry q c Q)|]. left. auto.
Qed.
Lemma start_state : state 1 = true. Proof. reflexivity. Qed.
Lemma start_acc : acc 1 = 0. Proof. Transparent acc. reflexivity. Opaque acc. Qed.
Lemma walk_stale : forall t last, t <> "" -> walk 1 t 0 last = token t.
Proof.
  intros [|c t] last H; [congruence|]. unfold token. cbn [walk]. destruct (first_char c) as [J A]. apply Nat.eqb_neq in J. rewrite J.
  unfold marked. rewrite start_acc. cbn [Nat.eqb]. destruct t as [|c' t]; cbn [walk]; unfold marked; apply Nat.eqb_neq in A; rewrite A; reflexivity.
Qed.
Lemma token_good : forall t, t <> "" -> state (fst (token t)) = true /\ acc (fst (token t)) <> 0 /\ 1 <= snd (token t) /\ snd (token t) <= String.length t.
Proof.
  intros [|c t] H; [congruence|]. unfold token. cbn [walk]. destruct (first_char c) as [J A]. apply Nat.eqb_neq in J. rewrite J.
  assert (D : state (delta 1 c) = true) by (apply (delta_entry 1 c start_state)).
  destruct (walk_good t (delta 1 c) 1 (marked 1 0 (0, 0)) D (or_intror A)) as [G1 G2]. split; [exact G1|]. split; [exact G2|].
  destruct (walk_bound t (delta 1 c) 1 (marked 1 0 (0, 0))) as [[B _]|B]; [|cbn [String.length]; lia].
  rewrite B in G1. unfold marked in G1. rewrite start_acc in G1. discriminate G1.
Qed.

(** ** One token *)
Definition pieces (i : input) : Prop := Forall (fun r => r <> "") (in_reads i).
Lemma scan_ok : forall n p s reads st last fuel, String.length s + List.length reads + String.length (fold_right append "" reads) <= n -> 2 * n + 6 <= fuel ->
  Forall (fun r => r <> "") reads -> reach 1 p = Some st ->
  (forall x m, p ++ s ++ m <> "" -> walk 1 (p ++ s ++ m) 0 x = walk st (s ++ m) (String.length p) last) ->
  let t := p ++ s ++ fold_right append "" reads in
  exists i' last', all_text i' = t /\ pieces i' /\
    scan fuel (Match st (String.length p)) (mkIn (p ++ s) reads) last =
      Ok (if String.eqb t "" then None else Some (acc (fst (token t)), snd (token t)), i', last') /\
    (t <> "" -> snd (token t) <= String.length (in_buf i')).
Proof.
  (* the last accepting state is the result *)
  assert (DONE : forall t i fuel last, t <> "" -> last = token t -> scan (S fuel) (FindAction (fst last) (snd last)) i last = Ok (Some (acc (fst (token t)), snd (token t)), i, last)).
  { intros t i fuel last H ->. destruct (token_good t H) as (G1 & G2 & _). cbn [scan]. rewrite accept_entry by exact G1. cbn [bind].
    destruct (Nat.eqb_spec (acc (fst (token t))) 0); [contradiction|]. destruct (Nat.eqb_spec (acc (fst (token t))) END_OF_BUFFER) as [C|_]; [|reflexivity].
    apply acc_end in G1. contradiction. }
  induction n as [n IH] using lt_wf_ind. intros p s reads st last fuel L F PC R W t.
  set (more := fold_right append "" reads) in *.
  assert (ST : state st = true) by (eapply reach_state; [|exact R]; reflexivity).
  destruct fuel as [|fuel]; [lia|]. cbn [scan in_buf].
  destruct (match_ok s p st last (String.length (p ++ s) + 3) ST) as [(NS & m & E & M)|(s1 & s2 & q' & E1 & SP & R1 & E)]; [rewrite length_app; lia| |].
  - (* no successor *)
    rewrite E. cbn [bind]. assert (NE : t <> "") by (unfold t; destruct p; [destruct s; [congruence|discriminate]|discriminate]).
    assert (TK : m = token t) by (symmetry; rewrite <- (M more); exact (W (0, 0) more NE)).
    destruct fuel as [|fuel]; [lia|]. exists (mkIn (p ++ s) reads), m. split; [unfold all_text, t; cbn [in_buf in_reads]; apply append_assoc|]. split; [exact PC|].
    split; [rewrite (DONE t) by auto; destruct (String.eqb_spec t ""); [contradiction|reflexivity]|].
    intros _. cbn [in_buf]. assert (NE' : p ++ s <> "") by (destruct p; [exact NS|discriminate]).
    assert (TK' : token (p ++ s) = m). { specialize (W (0, 0) ""). rewrite M, append_nil_r in W. exact (W NE'). }
    rewrite <- TK, <- TK'. apply token_good. exact NE'.
  - rewrite E. cbn [bind fst snd]. clear E.
    assert (RP : reach 1 (p ++ s1) = Some q') by (rewrite reach_app, R; exact R1).
    assert (Q' : state q' = true) by (eapply reach_state; [|exact RP]; reflexivity).
    destruct fuel as [|fuel]; [lia|]. cbn [scan in_buf].
    Transparent entry. cbn [entry yy_accept nth_error bind]. Opaque entry. cbn [Nat.eqb END_OF_BUFFER Nat.sub in_reads].
    rewrite Nat.sub_0_r. replace (String.length p + String.length s1) with (String.length (p ++ s1)) by (rewrite length_app; reflexivity).
    destruct (previous_ok (p ++ s1) "" 1 q' (3, S (String.length (p ++ s1))) eq_refl RP s2) as (last1 & P1 & W1).
    cbn [append String.length Nat.add] in P1, W1.
    assert (BUF : p ++ s = (p ++ s1) ++ s2) by (rewrite E1, append_assoc; reflexivity).
    destruct SP as [->|(r & ->)].
    + (* the end of the buffer *)
      rewrite append_nil_r in E1. subst s1. destruct (Nat.leb_spec (S (String.length (p ++ s))) (String.length (p ++ s))); [lia|].
      destruct reads as [|r rs].
      * (* the end of the file *)
        cbn [fold_right] in more. subst more. unfold t in *. rewrite append_nil_r in *.
        destruct (Nat.eqb_spec (String.length (p ++ s)) 0) as [Z|Z].
        -- assert (T : p ++ s = "") by (destruct (p ++ s); [reflexivity|discriminate Z]). exists (mkIn (p ++ s) []), (3, S (String.length (p ++ s))).
           split; [unfold all_text; cbn [in_buf in_reads fold_right]; apply append_nil_r|]. split; [constructor|]. rewrite T. split; [reflexivity|congruence].
        -- assert (NE : p ++ s <> "") by (intro C; rewrite C in Z; apply Z; reflexivity).
           rewrite P1. cbn [bind]. exists (mkIn (p ++ s) []).
           assert (TK : token (p ++ s) = marked q' (String.length (p ++ s)) last1).
           { rewrite <- (walk_stale _ (3, S (String.length (p ++ s))) NE). specialize (W1 ""). rewrite append_nil_r in W1. exact W1. }
           destruct fuel as [|fuel]; [lia|].
           destruct (Nat.eqb_spec (acc q') 0) as [A|A].
           ++ exists last1. split; [unfold all_text; cbn [in_buf in_reads fold_right]; apply append_nil_r|]. split; [constructor|]. split; [|intros _; cbn [in_buf]; apply token_good; exact NE].
              cbn [scan]. rewrite accept_entry by exact Q'. cbn [bind]. rewrite A. cbn [Nat.eqb].
              unfold marked in TK. rewrite A in TK. cbn [Nat.eqb] in TK.
              destruct fuel as [|fuel]; [lia|]. rewrite (DONE (p ++ s)) by auto. destruct (String.eqb_spec (p ++ s) ""); [contradiction|reflexivity].
           ++ exists last1. split; [unfold all_text; cbn [in_buf in_reads fold_right]; apply append_nil_r|]. split; [constructor|]. split; [|intros _; cbn [in_buf]; apply token_good; exact NE].
              cbn [scan]. rewrite accept_entry by exact Q'. cbn [bind].
              unfold marked in TK. destruct (Nat.eqb_spec (acc q') 0); [contradiction|]. destruct (Nat.eqb_spec (acc q') END_OF_BUFFER) as [C|_]; [apply acc_end in Q'; contradiction|].
              rewrite TK. cbn [fst snd]. destruct (String.eqb_spec (p ++ s) ""); [contradiction|reflexivity].
      * (* more text *)
        cbn [in_buf]. apply Forall_cons_iff in PC as [PC1 PC2].
        destruct (previous_ok (p ++ s) "" 1 q' (3, S (String.length (p ++ s))) eq_refl RP r) as (last2 & P2 & W2). cbn [append String.length Nat.add] in P2, W2.
        rewrite P2. cbn [bind]. unfold t, more. cbn [fold_right].
        specialize (IH (String.length r + List.length rs + String.length (fold_right append "" rs))).
        cbn [fold_right List.length] in L. unfold more in L. cbn [fold_right] in L. rewrite length_app in L.
        specialize (IH ltac:(lia) (p ++ s) r rs q' last2 fuel ltac:(lia) ltac:(lia) PC2 RP).
        rewrite append_assoc in IH. apply IH. intros x m NE. rewrite <- W2, append_assoc. rewrite append_assoc in NE.
        rewrite (walk_stale _ x NE). symmetry. apply walk_stale. exact NE.
    + (* a NUL in the text *)
      rewrite BUF. rewrite append_assoc. rewrite append_assoc in P1. 
      destruct (Nat.leb_spec (S (String.length (p ++ s1))) (String.length (p ++ s1 ++ String nul r))) as [_|C]; [|rewrite !length_app in C; cbn [String.length] in C; lia].
      rewrite P1. cbn [bind]. unfold try_NUL_trans. rewrite remember_ok by exact Q'. cbn [bind].
      destruct (delta_entry q' nul Q') as [D1 D2]. change (next_state chain q' 1) with (next_state chain q' (class nul)). rewrite D1. cbn [bind].
      assert (NE : t <> "") by (unfold t; rewrite E1; destruct p; [destruct s1; discriminate|discriminate]).
      assert (TT : t = (p ++ s1) ++ String nul (r ++ more)) by (unfold t; rewrite E1, !append_assoc; reflexivity).
      assert (TK : token t = walk q' (String nul (r ++ more)) (String.length (p ++ s1)) last1).
      { rewrite <- (walk_stale _ (3, S (String.length (p ++ s1))) NE). rewrite TT. apply W1. }
      cbn [walk] in TK. destruct (delta q' nul =? jam) eqn:J; cbn [fst snd].
      * destruct fuel as [|fuel]; [lia|]. exists (mkIn (p ++ s1 ++ String nul r) reads), (token t).
        split; [unfold all_text; cbn [in_buf in_reads]; rewrite TT, !append_assoc; reflexivity|]. split; [exact PC|].
        split; [rewrite <- TK; rewrite (DONE t) by auto; destruct (String.eqb_spec t ""); [contradiction|reflexivity]|].
        intros _. cbn [in_buf]. assert (NE' : p ++ s1 ++ String nul r <> "") by (destruct p; [destruct s1; discriminate|discriminate]).
        replace (token t) with (token (p ++ s1 ++ String nul r)); [apply token_good; exact NE'|].
        rewrite TK, <- (walk_stale _ (3, S (String.length (p ++ s1))) NE'), <- append_assoc, W1. cbn [walk]. rewrite J. reflexivity.
      * specialize (IH (String.length r + List.length reads + String.length more)).
        assert (LS : String.length s = String.length s1 + S (String.length r)) by (rewrite E1, length_app; reflexivity).
        assert (CP : S (String.length (p ++ s1)) = String.length (p ++ s1 ++ String nul "")) by (rewrite !length_app; cbn [String.length]; lia).
        rewrite CP.
        specialize (IH ltac:(lia) (p ++ s1 ++ String nul "") r reads (delta q' nul) (marked q' (String.length (p ++ s1)) last1) fuel ltac:(fold more; lia) ltac:(lia) PC).
        assert (RN : reach 1 (p ++ s1 ++ String nul "") = Some (delta q' nul)).
        { rewrite <- append_assoc, reach_app, RP. cbn [reach]. rewrite J. reflexivity. }
        specialize (IH RN). rewrite !append_assoc in IH. cbn [append] in IH. fold more in IH.
        unfold t. rewrite E1, !append_assoc. cbn [append]. apply IH. intros x m NM. rewrite <- CP.
        rewrite (walk_stale _ x), <- (walk_stale _ (3, S (String.length (p ++ s1)))) by exact NM.
        replace ((p ++ s1 ++ String nul "") ++ r ++ m) with ((p ++ s1) ++ String nul (r ++ m)) by (rewrite !append_assoc; reflexivity). rewrite W1. cbn [walk]. rewrite J. reflexivity.
Qed.

Theorem scan_token : forall i last, pieces i ->
  exists i' last', all_text i' = all_text i /\ pieces i' /\
    scan (scan_fuel i) (Match 1 0) i last =
      Ok (if String.eqb (all_text i) "" then None else Some (acc (fst (token (all_text i))), snd (token (all_text i))), i', last') /\
    (all_text i <> "" -> snd (token (all_text i)) <= String.length (in_buf i')).
Proof.
  intros [b rs] last P. unfold all_text. cbn [in_buf in_reads].
  destruct (scan_ok (String.length b + List.length rs + String.length (fold_right append "" rs)) "" b rs 1 last (scan_fuel (mkIn b rs))) as (i' & last' & A & B & C & D);
    [lia| |exact P|reflexivity| |].
  - unfold scan_fuel, all_text. cbn [in_buf in_reads]. rewrite length_app. lia.
  - intros x m NE. cbn [append String.length] in *. rewrite (walk_stale _ x NE), (walk_stale _ last NE). reflexivity.
  - cbn [append] in *. exists i', last'. auto.
Qed.
