(** Printed numbers are tidy. *)
From Coq Require Import List Bool String Ascii ZArith QArith Qabs Qcanon Lia.
From Verif Require Import Num Base Signal Robust Transducer Driver Tables Parser ParserSpec LexProof Decimal DecimalSpec DecimalProof.
Local Open Scope string_scope.
Local Open Scope Z_scope.

Lemma no_zeros_head : forall l c l', no_zeros l = (c :: l')%list -> c <> "0"%char.
Proof. induction l as [|x l IH]; intros c l' H; cbn in H; [discriminate|]. destruct (Z.eqb_spec (code x) 48) as [E|E]; [apply (IH c l'); exact H|]. injection H as -> _. intros ->. apply E. reflexivity. Qed.
Lemma fraction_tidy : forall u, all is_digit u -> tidy_fraction (fraction u).
Proof.
  intros u U. unfold fraction. destruct (no_zeros_spec (rev (list_ascii_of_string u))) as [k E]. destruct (no_zeros (rev (list_ascii_of_string u))) as [|c l] eqn:Z; [left; reflexivity|].
  apply no_zeros_head in Z. right. exists (string_of_list_ascii (rev l)), c. cbn [rev]. rewrite soa_app. cbn [string_of_list_ascii].
  assert (D : all is_digit (string_of_list_ascii (rev l) ++ String c "")).
  { rewrite <- (string_of_list_ascii_of_string u), <- (rev_involutive (list_ascii_of_string u)), E in U. rewrite rev_app_distr in U. cbn [rev] in U. rewrite !soa_app in U. apply all_app in U as [U _]. exact U. }
  apply all_app in D as [D1 D2]. apply digit_all in D1, D2. apply all_cons in D2 as [D2 _]. split; [|auto]. destruct (string_of_list_ascii (rev l)); reflexivity.
Qed.
Lemma digits_bound : forall w, all is_digit w -> 0 <= digits 0 w < 10 ^ Z.of_nat (String.length w).
Proof.
  induction w as [|c w IH]; intro A; [cbn; lia|]. apply all_cons in A as [D A]. specialize (IH A). cbn [digits String.length]. rewrite digits_acc, Nat2Z.inj_succ, Z.pow_succ_r by lia.
  unfold is_digit in D. apply andb_prop in D as [D1 D2]. apply Z.leb_le in D1, D2. nia.
Qed.
Lemma integer_head : forall n c r, 0 < n -> integer n = String c r -> c <> "0"%char.
Proof.
  intros n c r P E ->. destruct (integer_spec n P) as (A & V & _ & B & _). rewrite E in *. apply all_cons in A as [_ A]. apply digits_bound in A.
  cbn [digits String.length] in *. change (10 * 0 + (code "0" - 48)) with 0 in V. replace (Z.of_nat (S (String.length r)) - 1) with (Z.of_nat (String.length r)) in B by lia. lia.
Qed.
Lemma render_tidy : forall m x, normal m -> exists a f e, render m x = a ++ f ++ e /\ all digit a /\ (a = "0" \/ exists c r, a = String c r /\ c <> "0"%char) /\ tidy_fraction f /\ exponent e.
Proof.
  intros m x M. destruct (integer_six m M) as (A & _ & L). unfold render. destruct (Z.leb_spec (-4) x) as [X1|X1]; destruct (Z.ltb_spec x 6) as [X2|X2]; cbn [andb].
  1: destruct (Z.ltb_spec x 0) as [X3|X3].
  - exists "0". eexists. exists "". split; [rewrite append_nil; reflexivity|]. split; [reflexivity|]. split; [left; reflexivity|]. split; [|left; reflexivity].
    apply fraction_tidy. apply all_app. split; [apply zs_digits|exact A].
  - destruct (substring_split (integer m) (Z.to_nat (x + 1)) 6) as [S1 S2]; try lia. pose proof A as A0. rewrite <- S1 in A0. apply all_app in A0 as [A1 A2].
    eexists. eexists. exists "". split; [rewrite append_nil; reflexivity|]. split; [apply digit_all; exact A1|]. split; [|split; [apply fraction_tidy; exact A2|left; reflexivity]].
    right. destruct (integer m) as [|c r] eqn:I; [discriminate L|]. destruct (Z.to_nat (x + 1)) as [|k] eqn:K; [lia|]. cbn [substring]. exists c. eexists. split; [reflexivity|].
    apply (integer_head m c r); [unfold normal in M; lia|exact I].
  - destruct (substring_split (integer m) 1 6) as [S1 S2]; try lia. pose proof A as A0. rewrite <- S1 in A0. apply all_app in A0 as [A1 A2].
    eexists. eexists. eexists. split; [reflexivity|]. split; [apply digit_all; exact A1|]. split; [|split; [apply fraction_tidy; exact A2|]].
    + right. destruct (integer m) as [|c r] eqn:I; [discriminate L|]. cbn [substring]. exists c. eexists. split; [reflexivity|]. apply (integer_head m c r); [unfold normal in M; lia|exact I].
    + right. destruct (integer_spec (Z.abs x) ltac:(lia)) as (B & _ & N0 & U). eexists. eexists. split; [reflexivity|]. split; [destruct (x <? 0); auto|].
      split; [apply all_app; split; [destruct (Z.abs x <? 10); reflexivity|apply digit_all; exact B]|]. rewrite len_app. destruct (Z.ltb_spec (Z.abs x) 10) as [T|T]; cbn [String.length]; [lia|].
      destruct (String.length (integer (Z.abs x))) as [|[|k]]; lia.
  - destruct (substring_split (integer m) 1 6) as [S1 S2]; try lia. pose proof A as A0. rewrite <- S1 in A0. apply all_app in A0 as [A1 A2].
    eexists. eexists. eexists. split; [reflexivity|]. split; [apply digit_all; exact A1|]. split; [|split; [apply fraction_tidy; exact A2|]].
    + right. destruct (integer m) as [|c r] eqn:I; [discriminate L|]. cbn [substring]. exists c. eexists. split; [reflexivity|]. apply (integer_head m c r); [unfold normal in M; lia|exact I].
    + right. destruct (integer_spec (Z.abs x) ltac:(lia)) as (B & _ & N0 & U). eexists. eexists. split; [reflexivity|]. split; [destruct (x <? 0); auto|].
      split; [apply all_app; split; [destruct (Z.abs x <? 10); reflexivity|apply digit_all; exact B]|]. rewrite len_app. destruct (Z.ltb_spec (Z.abs x) 10) as [T|T]; cbn [String.length]; [lia|].
      destruct (String.length (integer (Z.abs x))) as [|[|k]]; lia.
  - lia.
Qed.
Lemma show_tidy : forall v, tidy (show6 v).
Proof.
  intro v. destruct (Qc_eq_dec v 0%Qc) as [->|NZ].
  - exists "", "0", "", "". repeat split; auto; left; reflexivity.
  - destruct (show6_spec v NZ) as (m & x & k & m0 & -> & M & _). destruct (render_tidy m x M) as (a & f & e & -> & H). eexists. exists a, f, e. split; [reflexivity|]. split; [|exact H].
    destruct (Qlt_le_dec (this v) 0); auto.
Qed.
(** A text with a trailing zero is not tidy. *)
Lemma untidy_case : ~ tidy "2.50".
Proof.
  assert (S : forall a b : string, a ++ b = "2.50" -> a = "" \/ a = "2" \/ a = "2." \/ a = "2.5" \/ a = "2.50").
  { intros [|x1 [|x2 [|x3 [|x4 [|x5 a]]]]] b H; cbn [append] in H; inversion H; subst; auto 6. }
  intros (sg & a & f & e & E & SG & A & _ & F & X). destruct SG as [->| ->]; [|discriminate E]. cbn [append] in E. symmetry in E. destruct (S _ _ E) as [->|[->|[->|[->| ->]]]]; try discriminate A.
  - cbn [append] in E. destruct F as [->|(t & c & -> & _)]; [|discriminate E]. destruct X as [->|(s & x & -> & _)]; discriminate E.
  - cbn [append] in E. injection E as E. destruct F as [->|(t & c & -> & At & Dc & NZ)]; [destruct X as [->|(s & x & -> & _)]; discriminate E|].
    destruct X as [->|(s & x & -> & _)].
    + rewrite append_nil in E. destruct t as [|y [|y' [|y'' t]]]; cbn [append] in E; inversion E; subst; congruence.
    + destruct t as [|y [|y' [|y'' t]]]; cbn [append] in E; inversion E; subst; try discriminate; congruence.
Qed.
