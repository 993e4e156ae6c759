(** Printed formulas with rounded numbers; cases. *)
From Coq Require Import List Bool String Ascii ZArith QArith Qabs Qcanon Lia.
From Verif Require Import Num Base Signal QcTac Robust Transducer TreeProof Driver Tables Parser Automaton ParserProof ParserSpec ParserTotal PrecProof LexProof PrintProof SignalClaims Decimal DecimalSpec DecimalProof ParserClaims.
Import ListNotations.
Local Open Scope string_scope.

Lemma print_bound_six : forall b b', six_bound b b' -> print_bound show6 b = print_bound show6 b'.
Proof.
  intros [n [s|]] [n' o'] H; unfold six_bound in H; cbn [bstr bnum] in H.
  - injection H as -> ->. reflexivity.
  - destruct H as [-> H]. cbn [print_bound bstr bnum]. symmetry. now apply show6_again.
Qed.
Lemma print_interval_six : forall i i', six_interval i i' -> print_interval show6 i = print_interval show6 i'.
Proof. intros i i' [A B]. unfold print_interval. now rewrite (print_bound_six _ _ A), (print_bound_six _ _ B). Qed.
Lemma print_six : forall f f', six f f' -> print show6 f = print show6 f'.
Proof.
  intros f f' H. induction H; cbn [print]; try reflexivity; try congruence.
  - symmetry. now apply show6_again.
  - now rewrite (print_interval_six _ _ H), IHsix.
  - now rewrite (print_interval_six _ _ H), IHsix.
  - now rewrite (print_interval_six _ _ H0), IHsix1, IHsix2.
Qed.
Lemma print_six_parse : forall d f f' p q x, six f f' -> printable decimal (column d) show6 (fst d) actual f' p q -> fresh (fst d) (snd d) x ->
  exists t, skel t = f' /\
    parse decimal d (x ++ " := " ++ print show6 f) =
      Ok (true, (d_with_formulas (fst d) (assign x t (d_formulas (fst d))), snd d)).
Proof. intros d f f' p q x S P F. rewrite (print_six _ _ S). exact (print_parse decimal show6 d f' p q x P F). Qed.

(** alw_[0, 1/3] (not x > 1.2345678) and y > -20/3 or so. *)
Definition thirds : fml Qc :=
  FAnd (FAlw (mkI (mkB (q 0) None) (mkB (Q2Qc (1 # 3)) None)) (FNot (FAtom (FSig "x" 1) GREATERTHAN (FConst None (Q2Qc (12345678 # 10000000))))))
       (FAtom (FSig "y" 2) GREATERTHAN (FConst None (Q2Qc (-20 # 3)))).
Definition thirds6 : fml Qc :=
  FAnd (FAlw (mkI (mkB (q 0) None) (mkB (Q2Qc (333333 # 1000000)) None)) (FNot (FAtom (FSig "x" 1) GREATERTHAN (FConst None (Q2Qc (123457 # 100000))))))
       (FAtom (FSig "y" 2) GREATERTHAN (FConst None (Q2Qc (-666667 # 100000)))).
Ltac sixth k m := right; exists k, m; repeat match goal with |- _ /\ _ => split end; vm_compute; solve [reflexivity | discriminate | intros; discriminate].
Lemma thirds_six : six thirds thirds6.
Proof.
  apply D_and.
  - apply D_alw.
    + split; cbn [six_bound ibegin iend bstr bnum]; split; try reflexivity; [left; split; reflexivity|]. sixth (-1)%Z 333333%Z.
    + apply D_not, D_atom; [apply D_sig|apply D_number]. sixth 0%Z 123457%Z.
  - apply D_atom; [apply D_sig|apply D_number]. sixth 0%Z (-666667)%Z.
Qed.
Lemma thirds_printable : exists p r, printable decimal (column d_xy) show6 (fst d_xy) actual thirds6 p r.
Proof.
  assert (X : leaf decimal (column d_xy) show6 (fst d_xy) (FSig "x" 1)) by (apply Lf_signal; [exact sp_x|computed]).
  assert (Y : leaf decimal (column d_xy) show6 (fst d_xy) (FSig "y" 2)) by (apply Lf_signal; [exact sp_y|computed]).
  do 2 eexists. eapply (P_bin _ _ _ _ _ And).
  - eapply P_alw.
    + split; apply Pb_number; try number; left; [apply M_int; [discriminate|reflexivity]|apply (M_frac "0" "333333"); reflexivity].
    + eapply P_not.
      * apply P_atom; [apply Ps_leaf; auto|]. apply Ps_leaf, Lf_number; [|number]. left. apply (M_frac "1" "23457"); reflexivity.
      * vm_compute; lia.
    + vm_compute; lia.
  - apply P_atom; [apply Ps_leaf; auto|]. apply Ps_leaf, Lf_number; [|number]. right. exists "6.66667". split; [apply (M_frac "6" "66667"); reflexivity|right; computed].
  - vm_compute; lia.
  - vm_compute; lia.
Qed.
Lemma thirds_text : print show6 thirds = "alw_[0,0.333333] (not x[t] > 1.23457)  and y[t] > -6.66667".
Proof. vm_compute. reflexivity. Qed.
Lemma six_cases : six_digits (Q2Qc (1999999 # 2)) (q 1000000) /\ six_digits (Q2Qc (1999997 # 2)) (q 999998) /\
  six_digits (Q2Qc (1 # 30000)) (Q2Qc (333333 # 10000000000)).
Proof. split; [|split]; [sixth 5%Z 1000000%Z|sixth 5%Z 999998%Z|sixth (-5)%Z 333333%Z]. Qed.
Lemma show_cases : show6 (Q2Qc (1999999 # 2)) = "1e+06" /\ show6 (Q2Qc (1999997 # 2)) = "999998" /\ show6 (Q2Qc (1 # 30000)) = "3.33333e-05" /\
  show6 (- Q2Qc (1 # 8))%Qc = "-0.125".
Proof. repeat split; vm_compute; reflexivity. Qed.
