(** simplify (signal.cpp:121-144) keeps the values. *)
From Coq Require Import List QArith Qcanon Bool Lia.
From Verif Require Import Num Base Signal QcTac Spec Robust Repr AndProof.
Import ListNotations.
Local Open Scope Qc_scope.

Lemma back_app : forall A (l : list A) a, back (l ++ [a]) = Ok a.
Proof.
  intros A l a. induction l as [|x l IH]; [reflexivity|]. cbn [app].
  destruct (l ++ [a]) eqn:E; [destruct l; discriminate|]. exact IH.
Qed.
Lemma back_app2 : forall A (l1 l2 : list A), l2 <> [] -> back (l1 ++ l2) = back l2.
Proof.
  intros A l1 l2 H. destruct (exists_last H) as (l & a & ->). rewrite app_assoc, !back_app. reflexivity.
Qed.
Lemma back_cons : forall A (a : A) l, exists d bk, a :: l = d ++ [bk].
Proof. intros A a l. destruct (exists_last (l := a :: l)) as (d & bk & ->); [discriminate|eauto]. Qed.

Lemma eval_drop : forall d bk f rest u,
  ordered (d ++ bk :: f :: rest) -> line bk (time f) = value f -> deriv bk = deriv f ->
  eval (d ++ bk :: f :: rest) u = eval (d ++ bk :: rest) u.
Proof.
  intros d bk f rest u O H1 H2.
  assert (L : forall v, line f v = line bk v).
  { intros v. rewrite (line_shift bk (time f) v), H1, H2. unfold line. reflexivity. }
  rewrite ordered_app in O. destruct O as (_ & O & _). cbn [ordered] in O.
  destruct O as (F & _ & _). inversion F; subst.
  rewrite !eval_app. cbn [eval].
  destruct (eval rest u); [reflexivity|].
  destruct (nleb (time f) u) eqn:B; [|reflexivity]. qb.
  assert (B2 : nleb (time bk) u = true) by (apply nleb_true; qlra). rewrite B2, L. reflexivity.
Qed.

Lemma prepQ_drop : forall Q e d bk f rest t,
  line bk (time f) = value f -> deriv bk = deriv f ->
  prepQ true Q e (d ++ bk :: f :: rest) t -> prepQ true Q e (d ++ bk :: rest) t.
Proof.
  intros Q e d bk f rest t H1 H2. revert t.
  assert (L : forall v, line f v = line bk v).
  { intros v. rewrite (line_shift bk (time f) v), H1, H2. unfold line. reflexivity. }
  induction d as [|a d IH]; intros t P; cbn [app] in *.
  - inversion P as [|? ? ? t1 A1 A2 A3 P1]; subst. inversion P1 as [|? ? ? t2 B1 B2 B3 P2]; subst.
    eapply prep_cons; [reflexivity|..|exact P2]; [qlra|].
    intros u U1 U2. cbn in U2. destruct (Qclt_le_dec u (time f)) as [C|C].
    + apply A3; auto. cbn. qlra.
    + rewrite <- L. apply B3; auto.
  - inversion P as [|? ? ? t1 A1 A2 A3 P1]; subst. eapply prep_cons; eauto.
Qed.

Lemma prepQ_end : forall Q e d bk t,
  prepQ true Q e (d ++ [bk]) t -> prepQ true Q e (d ++ [bk] ++ [mkS e (line bk e) n0]) t.
Proof.
  intros Q e d bk. induction d as [|a d IH]; intros t P; cbn [app] in *.
  - inversion P as [|? ? ? t1 A1 A2 A3 P1]; subst. inversion P1; subst.
    eapply prep_cons; [reflexivity|exact A2|exact A3|].
    eapply prep_cons; [reflexivity| |..|constructor]; [cbn; qlra|].
    intros u U1 U2. cbn in U1, U2. assert (u = t1) by qlra. subst u.
    replace (line _ t1) with (line bk t1); [apply A3; auto|].
    unfold line at 2. cbn [time value deriv]. unfold n0; cbn [NumQc]. ring.
  - inversion P as [|? ? ? t1 A1 A2 A3 P1]; subst. eapply prep_cons; eauto.
Qed.

Lemma simplify_loop_ok : forall rest n b f0 d,
  (length rest <= n)%nat -> time f0 = b -> Forall (fun q => b < time q) rest ->
  ordered (f0 :: d ++ rest) ->
  exists d', simplify_loop n b (rest ++ f0 :: d) = Ok (f0 :: d') /\
    ordered (f0 :: d') /\ (forall u, eval (f0 :: d') u = eval (f0 :: d ++ rest) u) /\
    (forall q, In q d' -> In q (d ++ rest)) /\
    (continuous (f0 :: d ++ rest) -> continuous (f0 :: d')) /\
    (forall Q e t, prepQ true Q e (f0 :: d ++ rest) t -> prepQ true Q e (f0 :: d') t).
Proof.
  induction rest as [|f rest IH]; intros n b f0 d Hn Hf0 Hr O.
  - cbn [app]. exists d. rewrite app_nil_r in *.
    assert (E : neqb (time f0) b = true) by (apply neqb_true; auto).
    destruct n; cbn [simplify_loop]; rewrite E; auto 10.
  - destruct n as [|n]; [simpl in Hn; lia|]. cbn [app simplify_loop].
    inversion Hr as [|? ? Hf Hr']; subst.
    assert (E : neqb (time f) (time f0) = false) by (apply neqb_false; intro; qlra).
    rewrite E.
    assert (Hb : f :: rest ++ f0 :: d = (f :: rest) ++ f0 :: d) by reflexivity.
    rewrite Hb, back_app2 by discriminate.
    destruct (back_cons _ f0 d) as (d0 & bk & Ed). rewrite Ed, back_app. cbn [bind]. rewrite <- Ed.
    vline.
    destruct (neqb (line bk (time f)) (value f)) eqn:E1; cbn [negb orb].
    2:{ destruct (IH n (time f0) f0 (d ++ [f])) as (d' & R1 & R2 & R3 & R4 & R5); auto.
        - simpl in Hn; lia.
        - rewrite <- app_assoc. exact O.
        - rewrite <- app_assoc. cbn [app]. exists d'. rewrite <- app_assoc in R3, R4. destruct R5 as [R5 R6]. rewrite <- app_assoc in R5, R6.
          repeat split; auto; apply R2. }
    destruct (neqb (deriv bk) (deriv f)) eqn:E2; cbn [negb].
    2:{ destruct (IH n (time f0) f0 (d ++ [f])) as (d' & R1 & R2 & R3 & R4 & R5); auto.
        - simpl in Hn; lia.
        - rewrite <- app_assoc. exact O.
        - rewrite <- app_assoc. cbn [app]. exists d'. rewrite <- app_assoc in R3, R4. destruct R5 as [R5 R6]. rewrite <- app_assoc in R5, R6.
          repeat split; auto; apply R2. }
    qb.
    assert (O' : ordered (f0 :: d ++ rest)).
    { assert (K : f0 :: d ++ f :: rest = (f0 :: d) ++ [f] ++ rest) by reflexivity.
      rewrite K in O. assert (K2 : f0 :: d ++ rest = (f0 :: d) ++ rest) by reflexivity. rewrite K2.
      rewrite !ordered_app in *. destruct O as (O1 & (O2 & O3 & O4) & O5). split; [exact O1|]. split; [exact O3|].
      intros p q Hp Hq. apply O5; auto. apply in_or_app; auto. }
    destruct (IH n (time f0) f0 d) as (d' & R1 & R2 & R3 & R4 & R5); auto.
    { simpl in Hn; lia. }
    destruct R5 as [R5 R6].
    exists d'. split; auto. split; auto. split; [|split; [|split]].
    4:{ intros Q e t PQ. apply R6.
      assert (K2 : f0 :: d ++ rest = (f0 :: d) ++ rest) by reflexivity.
      assert (K3 : f0 :: d ++ f :: rest = (f0 :: d) ++ f :: rest) by reflexivity.
      rewrite K2. rewrite K3 in PQ. rewrite Ed in *. rewrite <- !app_assoc in *. cbn [app] in *.
      eapply prepQ_drop; eauto. }
    + intros u. rewrite R3.
      assert (K2 : f0 :: d ++ rest = (f0 :: d) ++ rest) by reflexivity.
      assert (K3 : f0 :: d ++ f :: rest = (f0 :: d) ++ f :: rest) by reflexivity.
      rewrite K2. rewrite K3 in *. rewrite Ed in *. rewrite <- !app_assoc in *. cbn [app] in *.
      symmetry. apply eval_drop; auto.
    + intros q Hq. apply R4 in Hq. apply in_app_or in Hq. apply in_or_app. destruct Hq; simpl; auto.
    + intros C. apply R5.
      assert (K2 : f0 :: d ++ rest = (f0 :: d) ++ rest) by reflexivity.
      assert (K3 : f0 :: d ++ f :: rest = (f0 :: d) ++ f :: rest) by reflexivity.
      rewrite K2. rewrite K3 in C. rewrite Ed in *. rewrite <- !app_assoc in *. cbn [app] in *.
      clear - C E1 E2. induction d0 as [|a d0 IHd].
      * cbn [app continuous] in C. destruct C as [C1 C2]. destruct rest as [|r rest]; [exact I|].
        cbn [app continuous]. destruct C2 as [C2 C3]. split; auto.
        rewrite <- C2. rewrite (line_shift bk (time f)), E1, E2. reflexivity.
      * cbn [app] in *. destruct (d0 ++ bk :: f :: rest) as [|y ys] eqn:Y; [destruct d0; discriminate|].
        assert (HD : exists ys', d0 ++ bk :: rest = y :: ys').
        { destruct d0; cbn [app] in *; inversion Y; eauto. }
        destruct HD as [ys' HD]. rewrite HD in *. cbn [continuous] in C |- *.
        destruct C as [C1 C2]. split; [auto|exact (IHd C2)].
Qed.

Lemma eval_last_app : forall l p u, u < time p -> eval (l ++ [p]) u = eval l u.
Proof.
  intros l p u H. rewrite eval_app. cbn [eval].
  assert (B : nleb (time p) u = false) by (apply nleb_false; auto). rewrite B. reflexivity.
Qed.

Lemma eval_back : forall d bk u, time bk <= u -> eval (d ++ [bk]) u = Some (line bk u).
Proof.
  intros d bk u H. rewrite eval_app. cbn [eval].
  assert (B : nleb (time bk) u = true) by (apply nleb_true; auto). rewrite B. reflexivity.
Qed.

Lemma continuous_app1 : forall d bk p, continuous (d ++ [bk]) -> line bk (time p) = value p ->
  continuous (d ++ [bk] ++ [p]).
Proof.
  induction d as [|a d IH]; intros bk p C H.
  - cbn [app continuous]. auto.
  - cbn [app] in *. specialize (IH bk p).
    destruct d as [|a' d]; cbn [app continuous] in *; destruct C as [C1 C2]; split; auto.
    apply IH; auto.
Qed.

Definition before (b e : Qc) (q : smp) := time q < e \/ time q = b.

(** The result of simplify on a signal whose first sample, and only it, is at
    beginTime. *)
Lemma simplify_ok : forall f0 l b e,
  time f0 = b -> ordered (f0 :: l) -> Forall (fun q => b < time q) l ->
  exists l', simplify (mkSig (f0 :: l) b e) = Ok (mkSig (f0 :: l') b e) /\
    ordered (f0 :: l') /\ Forall (fun q => b < time q) l' /\
    (forall u, u <= e -> eval (f0 :: l') u = eval (f0 :: l) u) /\
    (Forall (fun q => time q <= e) l -> Forall (fun q => time q <= e) l') /\
    (b < e -> Forall (before b e) l ->
       exists bk t1, b <= t1 /\ t1 < e /\ forall u, t1 <= u -> u <= e -> eval (f0 :: l') u = Some (line bk u)) /\
    (continuous (f0 :: l) -> continuous (f0 :: l')) /\
    (forall Q, prepQ true Q e (f0 :: l) b -> prepQ true Q e (f0 :: l') b) /\
    (b <= e -> Forall (fun q => time q <= e) l -> exists q, In q (f0 :: l') /\ time q = e).
Proof.
  intros f0 l b e Hf0 O F. unfold simplify. cbn [samples beginTime endTime].
  destruct (simplify_loop_ok l (2 * length (f0 :: l)) b f0 []) as (d' & R1 & R2 & R3 & R4 & R5 & R6); auto.
  { simpl; lia. }
  change (l ++ [f0]) with (l ++ f0 :: []). rewrite R1. cbn [bind]. cbn [app] in *.
  assert (F' : Forall (fun q => b < time q) d').
  { rewrite Forall_forall in *. auto. }
  destruct (back_cons _ f0 d') as (d0 & bk & Ed). rewrite Ed, back_app. cbn [bind]. vline.
  assert (Hbk : b <= time bk).
  { assert (I : In bk (f0 :: d')) by (rewrite Ed; apply in_or_app; simpl; auto).
    destruct I as [<-|I]; [qlra|]. rewrite Forall_forall in F'. specialize (F' _ I). qlra. }
  assert (EV : forall u, time bk <= u -> eval (f0 :: d') u = Some (line bk u)).
  { intros u Hu. rewrite Ed. apply eval_back; auto. }
  qcase.
  - exists (d' ++ [mkS e (line bk e) n0]).
    assert (K : (d0 ++ [bk]) ++ [mkS e (line bk e) n0] = f0 :: d' ++ [mkS e (line bk e) n0]).
    { rewrite <- Ed. reflexivity. }
    split; [reflexivity|].
    assert (OO : ordered (f0 :: d' ++ [mkS e (line bk e) n0])).
    { rewrite app_comm_cons. rewrite ordered_app. split; [auto|]. split; [cbn; auto|].
      intros p q Hp [<-|[]]. cbn [time].
      rewrite Ed in R2, Hp. rewrite ordered_app in R2. destruct R2 as (_ & _ & R2).
      apply in_app_or in Hp. destruct Hp as [Hp|[<-|[]]]; [|qlra].
      specialize (R2 p bk Hp (or_introl eq_refl)). qlra. }
    assert (EE : forall u, u <= e -> eval (f0 :: d' ++ [mkS e (line bk e) n0]) u = eval (f0 :: d') u).
    { intros u Hu. rewrite app_comm_cons. destruct (Qcle_lt_or_eq _ _ Hu) as [Lt| ->].
      - apply eval_last_app. cbn. auto.
      - rewrite eval_back by (cbn; qlra). rewrite EV by qlra. f_equal. unfold line. cbn [time value deriv]. 
        unfold n0; cbn [NumQc]. ring. }
    split; [exact OO|]. split; [|split; [|split; [|split; [|split; [|split]]]]].
    + rewrite Forall_app. split; auto. constructor; auto. cbn [time]. qlra.
    + intros u Hu. rewrite EE by auto. apply R3.
    + intros Fe. rewrite Forall_app. split; [rewrite Forall_forall in *; auto|]. constructor; auto. cbn [time]. qlra.
    + intros Hbe _. exists bk, (time bk). split; [auto|]. split; [auto|].
      intros u U1 U2. rewrite EE by auto. apply EV; auto.
    + intros C. assert (K2 : f0 :: d' ++ [mkS e (line bk e) n0] = d0 ++ [bk] ++ [mkS e (line bk e) n0]).
      { rewrite <- K. rewrite <- app_assoc. reflexivity. }
      rewrite K2. apply continuous_app1; [rewrite <- Ed; auto|reflexivity].
    + intros Q PQ. rewrite <- K, <- app_assoc. apply prepQ_end. rewrite <- Ed. apply R6. exact PQ.
    + intros _ _. exists (mkS e (line bk e) n0). split; [|reflexivity]. right. apply in_or_app. simpl; auto.
  - exists d'. split; [rewrite Ed; reflexivity|]. split; [auto|]. split; [auto|]. split; [|split; [|split; [|split; [|split]]]]; auto.
    + intros Fe. rewrite Forall_forall in *; auto.
    + intros Hbe Fb. exfalso.
      assert (I : In bk (f0 :: d')) by (rewrite Ed; apply in_or_app; simpl; auto).
      destruct I as [<-|I]; [qlra|]. apply R4 in I. rewrite Forall_forall in Fb, F.
      specialize (F _ I). destruct (Fb _ I); qlra.
    + intros Hbe Fb.
      assert (I : In bk (f0 :: d')) by (rewrite Ed; apply in_or_app; simpl; auto).
      exists bk. split; [exact I|].
      destruct I as [->|I]; [qlra|]. apply R4 in I. rewrite Forall_forall in Fb. specialize (Fb _ I). cbn in Fb. qlra.
Qed.
