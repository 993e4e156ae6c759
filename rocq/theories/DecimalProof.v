(** Printing a number and reading it back. *)
From Coq Require Import List Bool String Ascii ZArith QArith Qabs Qpower Qcanon Lia Lqa.
From Verif Require Import Num Base Signal Robust Transducer Driver Tables Parser ParserSpec LexProof Decimal DecimalSpec.
Import ListNotations.
Local Open Scope string_scope.
Local Open Scope Z_scope.

(** ** Digits *)
Lemma digits_app : forall u w a, digits a (u ++ w) = digits (digits a u) w.
Proof. induction u; intros; cbn [append digits]; auto. Qed.
Lemma len_app : forall a b, String.length (a ++ b) = (String.length a + String.length b)%nat.
Proof. induction a; intros; cbn [append String.length]; auto. rewrite IHa. reflexivity. Qed.
Lemma digits_acc : forall w a, digits a w = a * 10 ^ Z.of_nat (String.length w) + digits 0 w.
Proof.
  induction w as [|c w IH]; intros a; cbn [digits String.length].
  - cbn. lia.
  - rewrite IH, (IH (10 * 0 + _)). rewrite Nat2Z.inj_succ, Z.pow_succ_r by lia. ring.
Qed.
Lemma digits_cat : forall u w, digits 0 (u ++ w) = digits 0 u * 10 ^ Z.of_nat (String.length w) + digits 0 w.
Proof. intros. now rewrite digits_app, digits_acc. Qed.
Lemma all_app : forall p u w, all p (u ++ w) <-> all p u /\ all p w.
Proof.
  intros p u w. unfold all. induction u as [|c u IH]; cbn [append list_ascii_of_string forallb].
  - intuition.
  - rewrite !andb_true_iff, IH. intuition.
Qed.
Lemma digit_char : forall k, 0 <= k < 10 -> is_digit (ascii_of_nat (48 + Z.to_nat k)) = true /\ code (ascii_of_nat (48 + Z.to_nat k)) = 48 + k.
Proof.
  intros k H. assert (C : k = 0 \/ k = 1 \/ k = 2 \/ k = 3 \/ k = 4 \/ k = 5 \/ k = 6 \/ k = 7 \/ k = 8 \/ k = 9) by lia.
  repeat (destruct C as [->|C]; [split; reflexivity|]). subst. split; reflexivity.
Qed.
Lemma all_cons : forall p c w, all p (String c w) <-> p c = true /\ all p w.
Proof. intros. unfold all. cbn [list_ascii_of_string forallb]. apply andb_true_iff. Qed.
Lemma digits_of_spec : forall k n acc, 0 <= n -> n < 2 ^ Z.of_nat k -> (0 < k)%nat ->
  exists w, digits_of k n acc = w ++ acc /\ all is_digit w /\ digits 0 w = n /\ (0 < String.length w)%nat /\
    n < 10 ^ Z.of_nat (String.length w) /\ (0 < n -> 10 ^ (Z.of_nat (String.length w) - 1) <= n).
Proof.
  induction k as [|k IH]; intros n acc P B K; [lia|]. cbn [digits_of].
  assert (M : 0 <= n mod 10 < 10) by (apply Z.mod_pos_bound; lia). destruct (digit_char _ M) as [D1 D2].
  set (c := ascii_of_nat (48 + Z.to_nat (n mod 10))) in *.
  destruct (Z.ltb_spec n 10) as [L|L].
  - exists (String c ""). cbn [append]. split; [reflexivity|]. split; [apply all_cons; split; auto; reflexivity|].
    cbn [digits String.length]. rewrite D2. rewrite Z.mod_small by lia. repeat split; try lia; cbn; lia.
  - assert (B' : n / 10 < 2 ^ Z.of_nat k).
    { rewrite Nat2Z.inj_succ, Z.pow_succ_r in B by lia. apply Z.div_lt_upper_bound; lia. }
    assert (K' : (0 < k)%nat). { destruct k; [|lia]. cbn in B. lia. }
    assert (P' : 0 <= n / 10) by (apply Z.div_pos; lia).
    destruct (IH (n / 10) (String c acc) P' B' K') as (w & E & A & V & N & U & Lo). exists (w ++ String c "").
    pose proof (Z.div_mod n 10 ltac:(lia)) as DM.
    rewrite E, len_app, append_assoc. split; [reflexivity|]. split; [apply all_app; split; auto; apply all_cons; split; auto; reflexivity|].
    rewrite digits_cat, V. cbn [digits String.length]. rewrite D2. rewrite Nat2Z.inj_add.
    split; [change (10 ^ Z.of_nat 1) with 10; lia|]. split; [lia|].
    assert (Z1 : 0 < n / 10) by (apply Z.div_str_pos; lia). specialize (Lo Z1).
    assert (E10 : 10 ^ (Z.of_nat (String.length w) + Z.of_nat 1) = 10 ^ Z.of_nat (String.length w) * 10) by (rewrite Z.pow_add_r by lia; reflexivity).
    split.
    + rewrite E10. lia.
    + intros _. replace (Z.of_nat (String.length w) + Z.of_nat 1 - 1) with (Z.succ (Z.of_nat (String.length w) - 1)) by lia.
      rewrite Z.pow_succ_r by lia. lia.
Qed.
Lemma integer_spec : forall n, 0 < n -> all is_digit (integer n) /\ digits 0 (integer n) = n /\ (0 < String.length (integer n))%nat /\
  10 ^ (Z.of_nat (String.length (integer n)) - 1) <= n < 10 ^ Z.of_nat (String.length (integer n)).
Proof.
  intros n P. unfold integer. destruct (digits_of_spec (S (Z.to_nat (Z.log2 n))) n "") as (w & E & A & V & N & U & L); try lia.
  - rewrite Nat2Z.inj_succ, Z2Nat.id by apply Z.log2_nonneg. apply Z.log2_spec in P. lia.
  - rewrite E, append_nil. auto 6.
Qed.

(** ** Powers of 10 *)
Local Open Scope Q_scope.
Notation ten := (10 # 1).
Lemma ten0 : ~ ten == 0. Proof. intro H. discriminate H. Qed.
Lemma ten_pos : forall k, 0 < ten ^ k.
Proof. intro k. destruct (Qlt_le_dec 0 (ten ^ k)) as [L|L]; auto. exfalso. apply (Qpower_not_0 ten k ten0). apply Qle_antisym; auto. apply Qpower_0_le. discriminate. Qed.
Lemma ten_add : forall a b, ten ^ (a + b) == ten ^ a * ten ^ b.
Proof. intros. apply Qpower_plus. apply ten0. Qed.
Lemma ten_nat : forall k, (0 <= k)%Z -> ten ^ k == inject_Z (10 ^ k).
Proof. intros k H. rewrite <- (Zpower_Qpower 10 k H). reflexivity. Qed.
Lemma ten_neg : forall k, (0 <= k)%Z -> ten ^ (- k) == 1 / inject_Z (10 ^ k).
Proof. intros k H. rewrite Qpower_opp, ten_nat by auto. unfold Qdiv. now rewrite Qmult_1_l. Qed.
Lemma zpos : forall k, (0 <= k)%Z -> (0 < 10 ^ k)%Z. Proof. intros. apply Z.pow_pos_nonneg; lia. Qed.
Lemma scaled_ten : forall m e, this (scaled m e) == inject_Z m * ten ^ e.
Proof.
  intros m e. unfold scaled. destruct (Z.leb_spec 0 e) as [L|L]; cbn [this Q2Qc]; rewrite Qred_correct.
  - rewrite inject_Z_mult, ten_nat by auto. reflexivity.
  - pose proof (ten_neg (- e) ltac:(lia)) as E. rewrite Z.opp_involutive in E. rewrite E.
    pose proof (zpos (- e) ltac:(lia)) as P. unfold Qdiv, Qinv, Qmult, Qeq, inject_Z. cbn [Qnum Qden]. destruct (10 ^ (- e))%Z; try lia. cbn. lia.
Qed.
Lemma scaled_shift : forall m e k, (0 <= k)%Z -> scaled (m * 10 ^ k) (e - k) = scaled m e.
Proof.
  intros m e k K. apply Qc_is_canon. rewrite !scaled_ten. rewrite inject_Z_mult, <- ten_nat by auto.
  replace e with (e - k + k)%Z at 2 by lia. rewrite ten_add. ring.
Qed.
Lemma pow10_ten : forall e a b, pow10 1 e = (a, b) -> (0 < a)%Z /\ (0 < b)%Z /\ inject_Z a == ten ^ e * inject_Z b.
Proof.
  intros e a b H. unfold pow10 in H. destruct (Z.leb_spec 0 e) as [L|L]; pose proof (f_equal fst H) as H1; pose proof (f_equal snd H) as H2; cbn [fst snd] in H1, H2; subst a b; clear H.
  - pose proof (zpos e L). repeat split; try lia. rewrite Z.mul_1_l, ten_nat by auto. change (inject_Z 1) with 1. ring.
  - pose proof (zpos (- e) ltac:(lia)) as P. repeat split; try lia.
    pose proof (ten_neg (- e) ltac:(lia)) as E. rewrite Z.opp_involutive in E. rewrite E. field.
    intro C. unfold Qeq in C. cbn in C. lia.
Qed.

(** ** Rounding *)
Lemma half_even_spec : forall n d, (0 < d)%Z -> (Z.abs (2 * (half_even n d * d - n)) <= d)%Z /\
  ((Z.abs (2 * (half_even n d * d - n)) = d)%Z -> Z.even (half_even n d) = true).
Proof.
  intros n d P. unfold half_even. pose proof (Z.div_mod n d ltac:(lia)) as E. pose proof (Z.mod_pos_bound n d P) as B.
  set (q := (n / d)%Z) in *. set (r := (n mod d)%Z) in *.
  destruct (Z.ltb_spec (2 * r) d); cbn [orb]; [split; nia|].
  destruct (Z.eqb_spec (2 * r) d) as [EQ|NE]; cbn [andb].
  - destruct (Z.even q) eqn:EV; [split; [nia|auto]|]. split; [nia|]. intros _. rewrite Z.even_add, EV. reflexivity.
  - split; nia.
Qed.

(** ** The digits and the exponent that are printed *)
Definition render (m x : Z) : string :=
  let ds := integer m in
  if ((-4 <=? x) && (x <? 6))%Z%bool then
    if (x <? 0)%Z then "0" ++ fraction (string_of_list_ascii (repeat "0"%char (Z.to_nat (-x - 1))) ++ ds)
    else substring 0 (Z.to_nat (x + 1)) ds ++ fraction (substring (Z.to_nat (x + 1)) 6 ds)
  else
    let e := integer (Z.abs x) in
    substring 0 1 ds ++ fraction (substring 1 6 ds) ++ "e" ++ (if (x <? 0)%Z then "-" else "+") ++ (if (Z.abs x <? 10)%Z then "0" else "") ++ e.
Definition normal (m : Z) : Prop := (100000 <= m < 1000000)%Z.
Lemma injlt : forall a b, (a < b)%Z <-> inject_Z a < inject_Z b. Proof. intros. now rewrite Zlt_Qlt. Qed.
Lemma injle : forall a b, (a <= b)%Z <-> inject_Z a <= inject_Z b. Proof. intros. now rewrite Zle_Qle. Qed.
Lemma general_spec : forall n d, (0 < n)%Z -> (0 < d)%Z -> let v := inject_Z n / inject_Z d in
  exists m x k m0, general n d = render m x /\ normal m /\ ten ^ k <= v /\ v < ten ^ (k + 1) /\
    ((m0 = m /\ x = k) \/ (m0 = 1000000 /\ m = 100000 /\ x = k + 1)%Z) /\
    2 * Qabs (inject_Z m0 * ten ^ (k - 5) - v) <= ten ^ (k - 5) /\
    (2 * Qabs (inject_Z m0 * ten ^ (k - 5) - v) == ten ^ (k - 5) -> Z.even m0 = true).
Proof.
  intros n d N D v.
  assert (Nq : 0 < inject_Z n) by (apply (injlt 0 n); auto). assert (Dq : 0 < inject_Z d) by (apply (injlt 0 d); auto).
  assert (VD : v * inject_Z d == inject_Z n) by (unfold v; field; lra).
  destruct (integer_spec n N) as (_ & _ & Ln & Bn). destruct (integer_spec d D) as (_ & _ & Ld & Bd).
  unfold general. set (ln := Z.of_nat (String.length (integer n))) in *. set (ld := Z.of_nat (String.length (integer d))) in *.
  set (x0 := (ln - ld)%Z). destruct (pow10 1 x0) as [a b] eqn:P1. destruct (pow10_ten _ _ _ P1) as (A & B & EA).
  set (x := if (a * d <=? n * b)%Z then x0 else (x0 - 1)%Z).
  assert (X : ten ^ x <= v /\ v < ten ^ (x + 1)).
  { destruct Bn as [n1 n2], Bd as [d1 d2].
    apply injle in n1, d1. apply injlt in n2, d2. rewrite <- ten_nat in n1, n2, d1, d2 by lia.
    assert (Bq : 0 < inject_Z b) by (apply (injlt 0 b); auto).
    assert (H10 : ten ^ 1 == 10) by reflexivity.
    assert (E1 : ten ^ (ln - 1) * 10 == ten ^ ln). { rewrite <- H10, <- ten_add. replace (ln - 1 + 1)%Z with ln by lia. reflexivity. }
    assert (E2 : ten ^ (ld - 1) * 10 == ten ^ ld). { rewrite <- H10, <- ten_add. replace (ld - 1 + 1)%Z with ld by lia. reflexivity. }
    assert (E3 : ten ^ x0 * ten ^ ld == ten ^ ln). { rewrite <- ten_add. unfold x0. replace (ln - ld + ld)%Z with ln by lia. reflexivity. }
    assert (E4 : ten ^ (x0 - 1) * 10 == ten ^ x0). { rewrite <- H10, <- ten_add. replace (x0 - 1 + 1)%Z with x0 by lia. reflexivity. }
    assert (E5 : ten ^ (x0 + 1) == ten ^ x0 * 10). { rewrite ten_add, H10. reflexivity. }
    pose proof (ten_pos x0) as T0. pose proof (ten_pos ld) as T1.
    unfold x. destruct (Z.leb_spec (a * d) (n * b)) as [C|C].
    - apply injle in C. rewrite !inject_Z_mult, EA, <- VD in C. split.
      + apply Qmult_le_r with (z := inject_Z d * inject_Z b); [nra|]. nra.
      + rewrite E5. apply Qmult_lt_r with (z := inject_Z d); [auto|]. rewrite VD. nra.
    - apply injlt in C. rewrite !inject_Z_mult, EA, <- VD in C. split.
      + apply Qmult_le_r with (z := inject_Z d); [auto|]. rewrite VD. nra.
      + replace (x0 - 1 + 1)%Z with x0 by lia. apply Qmult_lt_r with (z := inject_Z d * inject_Z b); [nra|]. nra. }
  destruct (pow10 1 (5 - x)) as [a' b'] eqn:P2. destruct (pow10_ten _ _ _ P2) as (A' & B' & EA').

  destruct (half_even_spec (n * a') (d * b') ltac:(nia)) as [H1 H2].
  set (m0 := half_even (n * a') (d * b')) in *.
  assert (Bq : 0 < inject_Z b') by (apply (injlt 0 b'); auto).
  assert (ET : ten ^ (5 - x) * ten ^ (x - 5) == 1). { rewrite <- ten_add. replace (5 - x + (x - 5))%Z with 0%Z by lia. reflexivity. }
  pose proof (ten_pos (5 - x)) as T1. pose proof (ten_pos (x - 5)) as T2.
  (* the distance, scaled *)
  set (y := inject_Z m0 * ten ^ (x - 5) - v).
  assert (EY : inject_Z (2 * (m0 * (d * b') - n * a')) == 2 * y * ten ^ (5 - x) * inject_Z (d * b')).
  { assert (Ed : v * inject_Z d * inject_Z b' * ten ^ (5 - x) == inject_Z n * inject_Z a') by (rewrite EA', VD; ring).
    unfold y. unfold Z.sub. rewrite !inject_Z_mult, inject_Z_plus, inject_Z_opp, !inject_Z_mult. rewrite <- Ed.
    setoid_replace (2 * (inject_Z m0 * ten ^ (x - 5) - v) * ten ^ (5 - x) * (inject_Z d * inject_Z b'))
      with (2 * (inject_Z m0 * (ten ^ (5 - x) * ten ^ (x - 5)) * (inject_Z d * inject_Z b') - v * inject_Z d * inject_Z b' * ten ^ (5 - x))) by ring.
    rewrite ET. ring. }
  assert (DB : 0 < inject_Z (d * b')) by (rewrite inject_Z_mult; apply Qmult_lt_0_compat; auto).
  assert (EABS : inject_Z (Z.abs (2 * (m0 * (d * b') - n * a'))) == 2 * Qabs y * ten ^ (5 - x) * inject_Z (d * b')).
  { assert (G : forall z, inject_Z (Z.abs z) == Qabs (inject_Z z)) by (intro z; reflexivity). rewrite G, EY.
    rewrite !Qabs_Qmult. rewrite (Qabs_pos (ten ^ (5 - x))), (Qabs_pos (inject_Z (d * b'))) by lra. reflexivity. }
  assert (Y1 : 2 * Qabs y <= ten ^ (x - 5)).
  { apply injle in H1. rewrite EABS in H1. apply Qmult_le_r with (z := ten ^ (5 - x) * inject_Z (d * b')); [nra|].
    setoid_replace (ten ^ (x - 5) * (ten ^ (5 - x) * inject_Z (d * b'))) with (ten ^ (5 - x) * ten ^ (x - 5) * inject_Z (d * b')) by ring.
    rewrite ET. lra. }
  assert (Y2 : 2 * Qabs y == ten ^ (x - 5) -> Z.even m0 = true).
  { intro EQ. apply H2. apply inject_Z_injective. rewrite EABS, EQ.
    setoid_replace (ten ^ (x - 5) * ten ^ (5 - x) * inject_Z (d * b')) with (ten ^ (5 - x) * ten ^ (x - 5) * inject_Z (d * b')) by ring. rewrite ET. ring. }
  assert (M0 : (100000 <= m0 <= 1000000)%Z).
  { destruct X as [X1 X2]. unfold y in Y1.
    assert (E5 : ten ^ x == 100000 * ten ^ (x - 5)). { replace x with (5 + (x - 5))%Z at 1 by lia. rewrite ten_add. reflexivity. }
    assert (E6 : ten ^ (x + 1) == 1000000 * ten ^ (x - 5)). { replace (x + 1)%Z with (6 + (x - 5))%Z by lia. rewrite ten_add. reflexivity. }
    rewrite E5 in X1. rewrite E6 in X2.
    assert (Q1 : Qabs (inject_Z m0 * ten ^ (x - 5) - v) <= (1 # 2) * ten ^ (x - 5)) by lra.
    apply Qabs_Qle_condition in Q1. destruct Q1 as [Q1 Q2].
    split.
    - assert (G : inject_Z 99999 < inject_Z m0). { apply Qmult_lt_r with (z := ten ^ (x - 5)); [auto|]. change (inject_Z 99999) with (99999 # 1). lra. } apply injlt in G. lia.
    - assert (G : inject_Z m0 < inject_Z 1000001). { apply Qmult_lt_r with (z := ten ^ (x - 5)); [auto|]. change (inject_Z 1000001) with (1000001 # 1). lra. } apply injlt in G. lia. }
  destruct (Z.eqb_spec m0 1000000) as [E|E].
  - exists 100000%Z, (x + 1)%Z, x, m0. split; [reflexivity|]. split; [unfold normal; lia|]. destruct X. repeat split; auto. 
  - exists m0, x, x, m0. split; [reflexivity|]. split; [unfold normal; lia|]. destruct X. repeat split; auto.
Qed.

(** ** Reading the text *)
Local Open Scope Z_scope.
Notation zs k := (string_of_list_ascii (repeat "0"%char k)).
Lemma soa_app : forall a b, string_of_list_ascii (a ++ b)%list = string_of_list_ascii a ++ string_of_list_ascii b.
Proof. induction a; intros; cbn; auto. now rewrite IHa. Qed.
Lemma zs_digits : forall k, all is_digit (zs k) /\ digits 0 (zs k) = 0 /\ String.length (zs k) = k.
Proof.
  induction k as [|k (A & D & L)]; [repeat split|]. cbn [repeat string_of_list_ascii]. split; [apply all_cons; auto|].
  cbn [digits String.length]. change (10 * 0 + (code "0" - 48)) with 0. auto.
Qed.
Lemma no_zeros_spec : forall l, exists k, l = (repeat "0"%char k ++ no_zeros l)%list.
Proof.
  induction l as [|c l [k IH]]; [exists 0%nat; reflexivity|]. cbn [no_zeros]. destruct (Z.eqb_spec (code c) 48) as [E|E].
  - exists (S k). cbn [repeat app]. rewrite <- IH. f_equal. apply (f_equal Z.to_nat) in E. unfold code in E. rewrite Nat2Z.id in E.
    rewrite <- (ascii_nat_embedding c), E. reflexivity.
  - exists 0%nat. reflexivity.
Qed.
Lemma repeat_rev : forall {A} (a : A) k, rev (repeat a k) = repeat a k.
Proof.
  intros A a k. induction k as [|k IH]; auto. cbn [repeat rev]. rewrite IH. clear IH. induction k; auto. cbn [repeat app]. now rewrite IHk.
Qed.
Lemma fraction_spec : forall u, exists t k, u = t ++ zs k /\ fraction u = (if String.eqb t "" then "" else String "." t).
Proof.
  intro u. unfold fraction. destruct (no_zeros_spec (rev (list_ascii_of_string u))) as [k E].
  set (l := no_zeros _) in *. exists (string_of_list_ascii (rev l)), k. split.
  - rewrite <- soa_app. rewrite <- (repeat_rev "0"%char k), <- rev_app_distr, <- E, rev_involutive. now rewrite string_of_list_ascii_of_string.
  - destruct (string_of_list_ascii (rev l)); reflexivity.
Qed.

Definition finish (m k : Z) (r : string) : option Qc :=
  match r with
  | EmptyString => Some (scaled m k)
  | String c r' =>
      if (code c =? 101) || (code c =? 69) then
        let '(sg, r') := match r' with
                         | String d r'' => if code d =? 45 then (-1, r'') else if code d =? 43 then (1, r'') else (1, r')
                         | EmptyString => (1, r')
                         end in
        let '(x, r') := span is_digit r' in
        if String.eqb x "" then None
        else if String.eqb r' "" then Some (scaled m (k + sg * digits 0 x)) else None
      else None
  end.
Lemma magnitude_front : forall a u r, all is_digit a -> a <> "" -> all is_digit u ->
  match r with String c _ => is_digit c = false /\ code c <> 46 | EmptyString => True end ->
  exists k, (k <= String.length u)%nat /\ digits 0 (a ++ u) = digits 0 (a ++ u) / 10 ^ Z.of_nat k * 10 ^ Z.of_nat k /\
    magnitude (a ++ fraction u ++ r) = finish (digits 0 (a ++ u) / 10 ^ Z.of_nat k) (Z.of_nat k - Z.of_nat (String.length u)) r.
Proof.
  intros a u r A NE U R. destruct (fraction_spec u) as (t & k & E & ->). exists k.
  destruct (zs_digits k) as (Z1 & Z2 & Z3).
  assert (LU : String.length u = (String.length t + k)%nat) by (rewrite E, len_app, Z3; reflexivity).
  assert (EV : digits 0 (a ++ u) = digits 0 (a ++ t) * 10 ^ Z.of_nat k).
  { rewrite E, <- append_assoc, (digits_cat (a ++ t)), Z2, Z3. ring. }
  pose proof (zpos (Z.of_nat k) ltac:(lia)) as P.
  rewrite EV, Z.div_mul by lia. split; [lia|]. split; [reflexivity|].
  assert (T : all is_digit t) by (rewrite E in U; apply all_app in U; apply U).
  assert (NN : String.eqb a "" = false) by (apply String.eqb_neq; auto).
  replace (Z.of_nat k - Z.of_nat (String.length u)) with (- Z.of_nat (String.length t)) by lia.
  unfold magnitude. destruct (String.eqb_spec t "") as [->|NT].
  - cbn [append]. rewrite span_all; auto; [|destruct r; auto; apply R]. rewrite append_nil in *.
    destruct r as [|c r].
    + cbn [digits String.length append]. rewrite append_nil, NN. reflexivity.
    + destruct R as [R1 R2]. apply Z.eqb_neq in R2. rewrite R2. cbn [digits String.length]. rewrite append_nil, NN. reflexivity.
  - rewrite span_all; [|auto|reflexivity]. cbn [append]. change (code "." =? 46) with true. cbv iota.
    rewrite span_all; auto; [|destruct r; auto; apply R].
    replace (String.eqb (a ++ t) "") with false; [|symmetry; apply String.eqb_neq; destruct a; [congruence|discriminate]].
    rewrite digits_app. reflexivity.
Qed.
Lemma substring_split : forall s k n, (k <= String.length s)%nat -> (String.length s - k <= n)%nat ->
  substring 0 k s ++ substring k n s = s /\ String.length (substring 0 k s) = k.
Proof.
  induction s as [|c s IH]; intros k n K N; cbn [String.length] in *.
  - assert (k = 0%nat) by lia. subst. destruct n; split; reflexivity.
  - destruct k as [|k].
    + cbn [substring append String.length]. split; [|reflexivity]. destruct n as [|n]; [lia|]. cbn [substring]. f_equal.
      destruct (IH 0%nat n) as [H _]; try lia. destruct s; exact H.
    + cbn [substring append String.length]. destruct (IH k n) as [H1 H2]; try lia. rewrite H1, H2. auto.
Qed.
Lemma finish_end : forall m k j, 0 <= k -> m = m / 10 ^ k * 10 ^ k -> finish (m / 10 ^ k) (k - j) "" = Some (scaled m (- j)).
Proof. intros m k j K E. cbn [finish]. f_equal. rewrite E at 2. replace (- j) with (k - j - k) by lia. symmetry. apply scaled_shift. auto. Qed.
Lemma finish_exp : forall m k j x, 0 <= k -> m = m / 10 ^ k * 10 ^ k -> x <> 0 ->
  finish (m / 10 ^ k) (k - j) ("e" ++ (if x <? 0 then "-" else "+") ++ (if Z.abs x <? 10 then "0" else "") ++ integer (Z.abs x)) = Some (scaled m (x - j)).
Proof.
  intros m k j x K E X. destruct (integer_spec (Z.abs x) ltac:(lia)) as (A & V & L & _).
  set (w := (if Z.abs x <? 10 then "0" else "") ++ integer (Z.abs x)).
  assert (W : all is_digit w /\ digits 0 w = Z.abs x /\ w <> "").
  { unfold w. destruct (Z.abs x <? 10).
    - split; [apply all_app; split; auto; reflexivity|]. split; [|discriminate]. cbn [append digits]. change (10 * 0 + (code "0" - 48)) with 0. auto.
    - cbn [append]. split; auto. split; auto. intros C. rewrite C in L. cbn in L. lia. }
  destruct W as (W1 & W2 & W3). unfold finish. cbn [append].
  change ((code "e" =? 101) || (code "e" =? 69)) with true. cbv iota.
  assert (G : forall sg, (let '(x0, r') := span is_digit w in if String.eqb x0 "" then None else if String.eqb r' "" then Some (scaled (m / 10 ^ k) (k - j + sg * digits 0 x0)) else None) = Some (scaled (m / 10 ^ k) (k - j + sg * Z.abs x))).
  { intro sg. assert (SP : span is_digit w = (w, "")) by (rewrite <- (append_nil w) at 1; now apply span_all). rewrite SP, W2. replace (String.eqb w "") with false by (symmetry; apply String.eqb_neq; auto). reflexivity. }
  assert (F : scaled (m / 10 ^ k) (k - j + x) = scaled m (x - j)).
  { rewrite E at 2. replace (x - j) with (k - j + x - k) by lia. symmetry. now apply scaled_shift. }
  destruct (Z.ltb_spec x 0) as [C|C]; cbn [append].
  - change (code "-" =? 45) with true. cbv iota. rewrite G. f_equal. rewrite <- F. f_equal. lia.
  - change (code "+" =? 45) with false. change (code "+" =? 43) with true. cbv iota. rewrite G. f_equal. rewrite <- F. f_equal. lia.
Qed.
Lemma integer_six : forall m, normal m -> all is_digit (integer m) /\ digits 0 (integer m) = m /\ String.length (integer m) = 6%nat.
Proof.
  intros m M. unfold normal in M. destruct (integer_spec m ltac:(lia)) as (A & V & L & B). split; auto. split; auto.
  set (l := Z.of_nat (String.length (integer m))) in *.
  assert (C1 : 5 < l). { apply (Z.pow_lt_mono_r_iff 10); lia. }
  assert (C2 : l - 1 < 6). { apply (Z.pow_lt_mono_r_iff 10); lia. }
  lia.
Qed.
Lemma read_render : forall m x, normal m -> magnitude (render m x) = Some (scaled m (x - 5)).
Proof.
  intros m x M. destruct (integer_six m M) as (A & V & L). unfold render. set (ds := integer m) in *.
  destruct (Z.leb_spec (-4) x) as [X1|X1]; cbn [andb].
  1: destruct (Z.ltb_spec x 6) as [X2|X2].
  1: destruct (Z.ltb_spec x 0) as [X3|X3].
  - destruct (zs_digits (Z.to_nat (- x - 1))) as (Z1 & Z2 & Z3). set (z := zs _) in *.
    destruct (magnitude_front "0" (z ++ ds) "") as (k & K & D & R); try reflexivity; try discriminate; [apply all_app; auto|].
    rewrite append_nil in R. rewrite R, finish_end; auto; try lia. f_equal.
    assert (EV : digits 0 ("0" ++ z ++ ds) = m). { rewrite <- append_assoc, digits_cat, digits_cat, Z2, V. cbn [digits]. change (10 * 0 + (code "0" - 48)) with 0. ring. }
    rewrite EV, len_app, Z3, L. f_equal. lia.
  - destruct (substring_split ds (Z.to_nat (x + 1)) 6) as [S1 S2]; try lia.
    set (a := substring 0 _ ds) in *. set (u := substring _ 6 ds) in *.
    pose proof A as A0. rewrite <- S1 in A0. apply all_app in A0. destruct A0 as [A1 A2].
    destruct (magnitude_front a u "") as (k & K & D & R); auto. { intros C. rewrite C in S2. cbn in S2. lia. }
    rewrite append_nil in R. rewrite R, finish_end; auto; try lia. rewrite S1, V. f_equal. f_equal.
    pose proof (f_equal String.length S1) as LL. rewrite len_app in LL. lia.
  - destruct (substring_split ds 1 6) as [S1 S2]; try lia.
    set (a := substring 0 _ ds) in *. set (u := substring _ 6 ds) in *.
    pose proof A as A0. rewrite <- S1 in A0. apply all_app in A0. destruct A0 as [A1 A2].
    match goal with |- magnitude (a ++ fraction u ++ ?r) = _ => destruct (magnitude_front a u r) as (k & K & D & R) end; auto.
    { intros C. rewrite C in S2. cbn in S2. lia. } { split; [reflexivity|discriminate]. }
    rewrite R, finish_exp; auto; try lia. rewrite S1, V. f_equal. f_equal.
    pose proof (f_equal String.length S1) as LL. rewrite len_app in LL. lia.
  - destruct (substring_split ds 1 6) as [S1 S2]; try lia.
    set (a := substring 0 _ ds) in *. set (u := substring _ 6 ds) in *.
    pose proof A as A0. rewrite <- S1 in A0. apply all_app in A0. destruct A0 as [A1 A2].
    match goal with |- magnitude (a ++ fraction u ++ ?r) = _ => destruct (magnitude_front a u r) as (k & K & D & R) end; auto.
    { intros C. rewrite C in S2. cbn in S2. lia. } { split; [reflexivity|discriminate]. }
    rewrite R, finish_exp; auto; try lia. rewrite S1, V. f_equal. f_equal.
    pose proof (f_equal String.length S1) as LL. rewrite len_app in LL. lia.
Qed.

(** ** Numbers with a sign *)
Local Open Scope Q_scope.
Lemma ten_mono : forall a b, (a <= b)%Z -> ten ^ a <= ten ^ b.
Proof.
  intros a b H. replace b with (a + (b - a))%Z by lia. rewrite ten_add. pose proof (ten_pos a) as P.
  assert (G : 1 <= ten ^ (b - a)). { rewrite ten_nat by lia. change 1 with (inject_Z 1). apply (proj1 (injle 1 _)). pose proof (zpos (b - a) ltac:(lia)). lia. }
  apply Qle_trans with (ten ^ a * 1); [lra|]. apply Qmult_le_l; auto.
Qed.
Lemma ten_unique : forall q k k', ten ^ k <= q -> q < ten ^ (k + 1) -> ten ^ k' <= q -> q < ten ^ (k' + 1) -> k = k'.
Proof.
  intros q k k' A B A' B'. destruct (Z.lt_trichotomy k k') as [L|[L|L]]; auto; exfalso.
  - pose proof (ten_mono (k + 1) k' ltac:(lia)). lra.
  - pose proof (ten_mono (k' + 1) k ltac:(lia)). lra.
Qed.
Lemma ten_next : forall k j, (0 <= j)%Z -> ten ^ (k + j) == inject_Z (10 ^ j) * ten ^ k.
Proof. intros. rewrite ten_add, (ten_nat j) by auto. ring. Qed.
Lemma normal_range : forall m x, normal m -> ten ^ x <= inject_Z m * ten ^ (x - 5) /\ inject_Z m * ten ^ (x - 5) < ten ^ (x + 1).
Proof.
  intros m x [M1 M2]. apply injle in M1. apply injlt in M2. pose proof (ten_pos (x - 5)).
  replace x with (x - 5 + 5)%Z at 1 by lia. replace (x + 1)%Z with (x - 5 + 6)%Z by lia.
  rewrite (ten_next (x - 5) 5), (ten_next (x - 5) 6) by lia. split; [apply Qmult_le_r|apply Qmult_lt_r]; auto.
Qed.

Notation minus v := (if Qlt_le_dec (this v) 0 then "-" else "").
Lemma show6_spec : forall v, v <> 0%Qc -> let u := Qabs (this v) in
  exists m x k m0, show6 v = minus v ++ render m x /\ normal m /\ ten ^ k <= u /\ u < ten ^ (k + 1) /\
    ((m0 = m /\ x = k) \/ (m0 = 1000000 /\ m = 100000 /\ x = k + 1)%Z) /\
    2 * Qabs (inject_Z m0 * ten ^ (k - 5) - u) <= ten ^ (k - 5) /\
    (2 * Qabs (inject_Z m0 * ten ^ (k - 5) - u) == ten ^ (k - 5) -> Z.even m0 = true).
Proof.
  intros v NZ u.
  assert (EV : this v == inject_Z (Qnum (this v)) / inject_Z (Zpos (Qden (this v)))) by (destruct (this v) as [n d]; apply Qmake_Qdiv).
  assert (DP : 0 < inject_Z (Zpos (Qden (this v)))) by (apply (injlt 0 _); reflexivity).
  assert (N0 : Qnum (this v) <> 0%Z). { intros C. apply NZ. apply Qc_is_canon. rewrite EV, C. cbn [this Q2Qc]. reflexivity. }
  unfold show6. destruct (Z.eqb_spec (Qnum (this v)) 0) as [C|_]; [congruence|].
  assert (SG : (Qnum (this v) < 0)%Z <-> this v < 0). { destruct (this v) as [n d]. unfold Qlt. cbn [Qnum Qden]. lia. }
  destruct (Z.ltb_spec (Qnum (this v)) 0) as [L|L]; destruct (Qlt_le_dec (this v) 0) as [S1|S1].
  - destruct (general_spec (- Qnum (this v)) (Zpos (Qden (this v))) ltac:(lia) ltac:(lia)) as (m & x & k & m0 & G). exists m, x, k, m0.
    assert (EU : u == inject_Z (- Qnum (this v)) / inject_Z (Zpos (Qden (this v)))).
    { unfold u. rewrite Qabs_neg by lra. rewrite EV at 1. rewrite inject_Z_opp. field. lra. }
    cbv zeta in G. rewrite <- EU in G. destruct G as (-> & G). split; [reflexivity|exact G].
  - apply SG in L. lra.
  - apply SG in S1. lia.
  - destruct (general_spec (Qnum (this v)) (Zpos (Qden (this v))) ltac:(lia) ltac:(lia)) as (m & x & k & m0 & G). exists m, x, k, m0.
    assert (EU : u == inject_Z (Qnum (this v)) / inject_Z (Zpos (Qden (this v)))).
    { unfold u. rewrite Qabs_pos by lra. exact EV. }
    cbv zeta in G. rewrite <- EU in G. destruct G as (-> & G). split; [reflexivity|exact G].
Qed.
Lemma render_first : forall m x, normal m -> exists c r, render m x = String c r /\ is_digit c = true.
Proof.
  intros m x M. destruct (integer_six m M) as (A & _ & L). unfold render. destruct (_ && _)%bool; [destruct (Z.ltb_spec x 0)|].
  - eexists. eexists. split; [reflexivity|reflexivity].
  - destruct (integer m) as [|c r]; [discriminate|]. apply all_cons in A. destruct (Z.to_nat (x + 1)) eqn:E; [lia|]. cbn [substring append]. eexists. eexists. split; [reflexivity|apply A].
  - destruct (integer m) as [|c r]; [discriminate|]. apply all_cons in A. cbn [substring append]. eexists. eexists. split; [reflexivity|apply A].
Qed.
Lemma digit_code : forall c, is_digit c = true -> (code c =? 45)%Z = false /\ (code c =? 43)%Z = false.
Proof. intros c H. unfold is_digit in H. apply andb_prop in H as [H _]. apply Z.leb_le in H. split; apply Z.eqb_neq; lia. Qed.
Lemma decimal_render : forall (b : bool) m x, normal m ->
  decimal ((if b then "-" else "") ++ render m x) = Some (if b then Qcopp (scaled m (x - 5)) else scaled m (x - 5)).
Proof.
  intros b m x M. destruct b.
  - cbn [append decimal]. change (code "-" =? 45)%Z with true. cbv iota. rewrite read_render by auto. reflexivity.
  - cbn [append]. rewrite <- read_render by auto. destruct (render_first m x M) as (c & r & -> & D). destruct (digit_code c D) as [D1 D2].
    unfold decimal. rewrite D1, D2. reflexivity.
Qed.
Lemma six_value : forall v m x k m0, v <> 0%Qc -> normal m -> ten ^ k <= Qabs (this v) -> Qabs (this v) < ten ^ (k + 1) ->
    ((m0 = m /\ x = k) \/ (m0 = 1000000 /\ m = 100000 /\ x = k + 1)%Z) ->
    2 * Qabs (inject_Z m0 * ten ^ (k - 5) - Qabs (this v)) <= ten ^ (k - 5) ->
    (2 * Qabs (inject_Z m0 * ten ^ (k - 5) - Qabs (this v)) == ten ^ (k - 5) -> Z.even m0 = true) ->
  six_digits v (if Qlt_le_dec (this v) 0 then Qcopp (scaled m (x - 5)) else scaled m (x - 5)).
Proof.
  intros v m x k m0 NZ M A B C D T. right.
  assert (E : inject_Z m * ten ^ (x - 5) == inject_Z m0 * ten ^ (k - 5)).
  { destruct C as [[-> ->]|(-> & -> & ->)]; [reflexivity|]. replace (k + 1 - 5)%Z with (k - 5 + 1)%Z by lia. rewrite ten_add. change (ten ^ 1) with (10 # 1). change (inject_Z 1000000) with (1000000 # 1). change (inject_Z 100000) with (100000 # 1). ring. }
  destruct (Qlt_le_dec (this v) 0) as [S1|S1].
  - exists k, (- m0)%Z. rewrite Z.even_opp.
    assert (EY : this (- scaled m (x - 5))%Qc == - (inject_Z m0 * ten ^ (k - 5))).
    { cbn [this Qcopp Q2Qc]. rewrite Qred_correct, scaled_ten, E. reflexivity. }
    assert (EA : Qabs (this (- scaled m (x - 5))%Qc - this v) == Qabs (inject_Z m0 * ten ^ (k - 5) - Qabs (this v))).
    { rewrite EY, (Qabs_neg (this v)) by lra. rewrite <- Qabs_opp. apply Qabs_wd. ring. }
    rewrite EA. split; [exact A|]. split; [exact B|]. split; [rewrite EY, inject_Z_opp; ring|]. auto.
  - exists k, m0.
    assert (EY : this (scaled m (x - 5)) == inject_Z m0 * ten ^ (k - 5)) by (rewrite scaled_ten, E; reflexivity).
    assert (EA : Qabs (this (scaled m (x - 5)) - this v) == Qabs (inject_Z m0 * ten ^ (k - 5) - Qabs (this v))).
    { rewrite EY, (Qabs_pos (this v)) by lra. reflexivity. }
    rewrite EA. split; [exact A|]. split; [exact B|]. split; [rewrite EY; ring|]. auto.
Qed.
Lemma show6_zero : show6 0%Qc = "0". Proof. reflexivity. Qed.

Lemma read_back : forall v, exists v', decimal (show6 v) = Some v' /\ six_digits v v'.
Proof.
  intro v. destruct (Qc_eq_dec v 0%Qc) as [->|NZ].
  - exists 0%Qc. split; [|left; auto]. rewrite show6_zero. vm_compute. reflexivity.
  - destruct (show6_spec v NZ) as (m & x & k & m0 & E & M & A & B & C & D & T).
    pose proof (six_value v m x k m0 NZ M A B C D T) as S. rewrite E.
    destruct (Qlt_le_dec (this v) 0).
    + exists (- scaled m (x - 5))%Qc. split; [exact (decimal_render true m x M)|exact S].
    + exists (scaled m (x - 5))%Qc. split; [exact (decimal_render false m x M)|exact S].
Qed.
Lemma six_unique : forall v a b, six_digits v a -> six_digits v b -> a = b.
Proof.
  assert (NZ : forall k v, ten ^ k <= Qabs (this v) -> v <> 0%Qc).
  { intros k v H ->. change (Qabs (this 0%Qc)) with 0 in H. pose proof (ten_pos k). lra. }
  intros v a b [[Z ->]|(k & m & A1 & A2 & A3 & A4 & A5)] [[Z' ->]|(k' & m' & B1 & B2 & B3 & B4 & B5)]; auto.
  - exfalso. apply (NZ _ _ B1 Z).
  - exfalso. apply (NZ _ _ A1 Z').
  - pose proof (ten_unique _ _ _ A1 A2 B1 B2). subst k'. set (s := ten ^ (k - 5)) in *. assert (P : 0 < s) by apply ten_pos.
    assert (Q1 : Qabs (this a - this v) <= (1 # 2) * s) by lra. assert (Q2 : Qabs (this b - this v) <= (1 # 2) * s) by lra.
    apply Qabs_Qle_condition in Q1, Q2. destruct Q1 as [q1 q2], Q2 as [q3 q4]. rewrite A3 in *. rewrite B3 in *.
    assert (C : m = m').
    { assert (H1 : inject_Z m - inject_Z m' <= 1) by (apply Qmult_le_r with (z := s); [auto|lra]).
      assert (H2 : inject_Z m' - inject_Z m <= 1) by (apply Qmult_le_r with (z := s); [auto|lra]).
      assert (M : (m = m' \/ m = m' + 1 \/ m' = m + 1)%Z).
      { assert (inject_Z m <= inject_Z (m' + 1)) by (rewrite inject_Z_plus; change (inject_Z 1) with 1; lra).
        assert (inject_Z m' <= inject_Z (m + 1)) by (rewrite inject_Z_plus; change (inject_Z 1) with 1; lra).
        rewrite <- injle in *. lia. }
      destruct M as [M|[M|M]]; auto; exfalso.
      - subst m. rewrite inject_Z_plus in *. change (inject_Z 1) with 1 in *.
        assert (E1 : 2 * Qabs ((inject_Z m' + 1) * s - this v) == s) by (rewrite Qabs_pos by lra; lra).
        assert (E2 : 2 * Qabs (inject_Z m' * s - this v) == s) by (rewrite Qabs_neg by lra; lra).
        apply A5 in E1. apply B5 in E2. rewrite Z.even_add, E2 in E1. discriminate.
      - subst m'. rewrite inject_Z_plus in *. change (inject_Z 1) with 1 in *.
        assert (E1 : 2 * Qabs ((inject_Z m + 1) * s - this v) == s) by (rewrite Qabs_pos by lra; lra).
        assert (E2 : 2 * Qabs (inject_Z m * s - this v) == s) by (rewrite Qabs_neg by lra; lra).
        apply B5 in E1. apply A5 in E2. rewrite Z.even_add, E2 in E1. discriminate. }
    apply Qc_is_canon. rewrite A3, B3, C. reflexivity.
Qed.
Lemma show6_again : forall v v', six_digits v v' -> show6 v' = show6 v.
Proof.
  intros v v' S. destruct (Qc_eq_dec v 0%Qc) as [->|NZ].
  - f_equal. apply (six_unique 0%Qc); auto. left; auto.
  - destruct (show6_spec v NZ) as (m & x & k & m0 & E & M & A & B & C & D & T).
    pose proof (six_unique _ _ _ S (six_value v m x k m0 NZ M A B C D T)) as EV. rewrite E. clear E S D T C A B k m0.
    destruct (normal_range m x M) as [R1 R2]. pose proof (ten_pos x) as PX.
    assert (U : Qabs (this v') == inject_Z m * ten ^ (x - 5) /\ v' <> 0%Qc /\ (this v < 0 <-> this v' < 0)).
    { subst v'. destruct (Qlt_le_dec (this v) 0).
      - assert (EQ : this (- scaled m (x - 5))%Qc == - (inject_Z m * ten ^ (x - 5))) by (cbn [this Qcopp Q2Qc]; rewrite Qred_correct, scaled_ten; reflexivity).
        rewrite EQ, Qabs_opp, Qabs_pos by lra. split; [reflexivity|]. split; [|lra]. intros H. rewrite H in EQ. change (this 0%Qc) with 0 in EQ. lra.
      - pose proof (scaled_ten m (x - 5)) as EQ.
        rewrite EQ, Qabs_pos by lra. split; [reflexivity|]. split; [|lra]. intros H. rewrite H in EQ. change (this 0%Qc) with 0 in EQ. lra. }
    destruct U as (U1 & U2 & U3).
    destruct (show6_spec v' U2) as (m' & x' & k & m0 & E & M' & A & B & C & D & _). rewrite U1 in A, B, D. rewrite E.
    assert (k = x) by (apply (ten_unique _ _ _ A B R1 R2)). subst k.
    assert (m0 = m).
    { set (s := ten ^ (x - 5)) in *. assert (P : 0 < s) by apply ten_pos. assert (Q1 : Qabs (inject_Z m0 * s - inject_Z m * s) <= (1 # 2) * s) by lra.
      apply Qabs_Qle_condition in Q1. destruct Q1 as [Q1 Q2].
      assert (H1 : inject_Z m0 < inject_Z (m + 1)). { apply Qmult_lt_r with (z := s); auto. rewrite inject_Z_plus. change (inject_Z 1) with 1. lra. }
      assert (H2 : inject_Z m < inject_Z (m0 + 1)). { apply Qmult_lt_r with (z := s); auto. rewrite inject_Z_plus. change (inject_Z 1) with 1. lra. }
      apply injlt in H1, H2. lia. }
    subst m0. destruct C as [[-> ->]|(C & _)]; [|unfold normal in M; lia].
    destruct (Qlt_le_dec (this v') 0), (Qlt_le_dec (this v) 0); try reflexivity; exfalso; intuition lra.
Qed.
Lemma six_fixed : forall v v', six_digits v v' -> six_digits v' v'.
Proof.
  intros v v' S. destruct (read_back v') as (w & D & S'). destruct (read_back v) as (w' & D' & S'').
  rewrite (show6_again v v' S), D' in D. injection D as ->. rewrite (six_unique _ _ _ S S'') in *. exact S'.
Qed.
Lemma six_reads : forall v v', six_digits v v' -> decimal (show6 v) = Some v'.
Proof. intros v v' S. destruct (read_back v) as (w & D & S'). rewrite D. f_equal. apply (six_unique v); auto. Qed.

(** ** The scanner takes the text if it has no exponent *)
Lemma digit_all : forall w, all is_digit w -> all digit w.
Proof. intros w. apply all_ext. apply digit_digit. Qed.
Lemma fraction_numeral : forall a u, all is_digit a -> a <> "" -> all is_digit u -> magnitude_text (a ++ fraction u).
Proof.
  intros a u A NE U. destruct (fraction_spec u) as (t & k & E & ->). destruct (String.eqb t "").
  - rewrite append_nil. apply M_int; auto using digit_all.
  - change (String "." t) with ("." ++ t). apply M_frac; auto using digit_all. apply digit_all. rewrite E in U. apply all_app in U. apply U.
Qed.
Lemma render_numeral : forall m x, normal m -> (-4 <= x < 6)%Z -> magnitude_text (render m x).
Proof.
  intros m x M X. destruct (integer_six m M) as (A & _ & L). unfold render.
  destruct (Z.leb_spec (-4) x); [|lia]. destruct (Z.ltb_spec x 6); [|lia]. cbn [andb]. destruct (Z.ltb_spec x 0) as [X3|X3].
  - apply fraction_numeral; [reflexivity|discriminate|]. apply all_app. split; auto. apply zs_digits.
  - destruct (substring_split (integer m) (Z.to_nat (x + 1)) 6) as [S1 S2]; try lia.
    pose proof A as A0. rewrite <- S1 in A0. apply all_app in A0. destruct A0 as [A1 A2]. apply fraction_numeral; auto.
    intros C. rewrite C in S2. cbn in S2. lia.
Qed.
Lemma numeral_no_e : forall w, numeral w -> all (fun c => negb (Ascii.eqb c "e")) w.
Proof.
  set (p := fun c => negb (Ascii.eqb c "e")).
  assert (D : forall w, all digit w -> all p w).
  { intros w. unfold all. induction (list_ascii_of_string w) as [|c l IH]; cbn [forallb]; auto. intros H. apply andb_prop in H as [H1 H2]. rewrite (IH H2), andb_true_r.
    unfold p. destruct (Ascii.eqb_spec c "e") as [->|]; [discriminate H1|reflexivity]. }
  assert (M : forall w, magnitude_text w -> all p w).
  { intros w [a NE A|a f A F]; auto. apply all_app. split; auto. apply all_app. split; auto. reflexivity. }
  intros w [H|(u & H & [->| ->])]; auto; apply all_app; split; auto; reflexivity.
Qed.
Lemma render_exp : forall m x, ~ (-4 <= x < 6)%Z -> ~ all (fun c => negb (Ascii.eqb c "e")) (render m x).
Proof.
  intros m x X. unfold render. replace ((-4 <=? x)%Z && (x <? 6)%Z)%bool with false.
  - rewrite !all_app. intros (_ & _ & C & _). discriminate C.
  - destruct (Z.leb_spec (-4) x); destruct (Z.ltb_spec x 6); try reflexivity. lia.
Qed.
Lemma scanned : forall v v', six_digits v v' ->
  (numeral (show6 v) <-> v' = 0%Qc \/ (ten ^ (-4) <= Qabs (this v') /\ Qabs (this v') < ten ^ 6)).
Proof.
  intros v v' S. destruct (Qc_eq_dec v 0%Qc) as [->|NZ].
  - assert (E : v' = 0%Qc) by (apply (six_unique 0%Qc); auto; left; auto). subst. split; [auto|]. intros _. left. apply M_int; [discriminate|reflexivity].
  - destruct (show6_spec v NZ) as (m & x & k & m0 & E & M & A & B & C & D & T).
    pose proof (six_unique _ _ _ S (six_value v m x k m0 NZ M A B C D T)) as EV. rewrite E. clear E S D T C A B k m0.
    destruct (normal_range m x M) as [R1 R2]. pose proof (ten_pos x) as PX.
    assert (U : Qabs (this v') == inject_Z m * ten ^ (x - 5)).
    { subst v'. destruct (Qlt_le_dec (this v) 0).
      - assert (EQ : this (- scaled m (x - 5))%Qc == - (inject_Z m * ten ^ (x - 5))) by (cbn [this Qcopp Q2Qc]; rewrite Qred_correct, scaled_ten; reflexivity).
        rewrite EQ, Qabs_opp, Qabs_pos by lra. reflexivity.
      - rewrite (scaled_ten m (x - 5)), Qabs_pos by lra. reflexivity. }
    assert (Z0 : v' <> 0%Qc). { intros H. rewrite H in U. change (Qabs (this 0%Qc)) with 0 in U. lra. }
    rewrite U. split.
    + intros H. right. apply numeral_no_e in H. apply all_app in H as [_ H].
      assert (X : (-4 <= x < 6)%Z) by (destruct (Z_le_gt_dec (-4) x), (Z_lt_ge_dec x 6); try lia; exfalso; revert H; apply render_exp; lia).
      pose proof (ten_mono (-4) x ltac:(lia)). pose proof (ten_mono (x + 1) 6 ltac:(lia)). split; lra.
    + intros [H|[H1 H2]]; [congruence|].
      assert (X : (-4 <= x < 6)%Z).
      { split.
        - destruct (Z_le_gt_dec (-4) x); auto. exfalso. pose proof (ten_mono (x + 1) (-4) ltac:(lia)). lra.
        - destruct (Z_lt_ge_dec x 6); auto. exfalso. pose proof (ten_mono 6 x ltac:(lia)). lra. }
      pose proof (render_numeral m x M X) as R. destruct (Qlt_le_dec (this v) 0); [right; exists (render m x); auto|left; exact R].
Qed.
