(** Evaluation of formulas without until never fails, whatever the data. *)
From Coq Require Import List QArith Qcanon Bool Lia.
From Verif Require Import Num Base Signal QcTac Spec Robust Repr NegProof SimplifyProof SigProof ResizeProof NegTimed Transducer StlSpec TreeProof TimedProof ReadProof AtomProof SafeSignal.
Import ListNotations.
Local Open Scope Qc_scope.

(** ** Appending *)
Definition built (P : list Qc) (z : signal Qc) : Prop :=
  map time (samples z) = P /\ (P <> [] -> beginTime z = hd 0 P /\ endTime z = last P 0).

Lemma append_old : forall ip z t v d, samples z <> [] -> t <= endTime z -> appendSample3 ip z t v d = Ok z.
Proof.
  intros ip z t v d N H. unfold appendSample3. apply nleb_true in H. rewrite H. destruct (samples z); [congruence|reflexivity].
Qed.

Lemma append_built : forall ip z t v d, Forall (fun q => time q <= endTime z) (samples z) ->
  (samples z <> [] -> endTime z < t) ->
  exists z', appendSample3 ip z t v d = Ok z' /\ map time (samples z') = map time (samples z) ++ [t] /\
    beginTime z' = hd t (map (fun _ => beginTime z) (samples z)) /\ endTime z' = t.
Proof.
  intros ip z t v d F H. unfold appendSample3. destruct (samples z) as [|p l] eqn:E.
  - rewrite andb_false_r. destruct ip; eexists; (split; [reflexivity|]); cbn [samples beginTime endTime map hd app time]; auto.
  - assert (Lt : endTime z < t) by (apply H; discriminate). assert (B : nleb t (endTime z) = false) by (apply nleb_false; auto).
    rewrite B. cbn [andb]. destruct ip.
    + eexists. split; [reflexivity|]. cbn [samples beginTime endTime]. rewrite map_app. split; [reflexivity|]. split; reflexivity.
    + destruct (exists_last (l := p :: l)) as (r & bk & EQ); [discriminate|]. rewrite EQ, back_app. cbn [bind].
      assert (Lb : time bk < t).
      { rewrite EQ in F. apply Forall_app in F. destruct F as [_ F]. inversion F; subst. qlra. }
      rewrite ndiv_some. 2:{ intro C. change (t - time bk = 0) in C. qlra. }
      cbn [of_div bind]. eexists. split; [reflexivity|]. cbn [samples beginTime endTime]. rewrite map_app, set_back_times.
      split; [reflexivity|]. split; [|reflexivity]. destruct r; reflexivity.
Qed.

Lemma incr_last : forall P t, incr (P ++ [t]) -> P <> [] -> last P 0 < t /\ Forall (fun a => a <= last P 0) P.
Proof.
  intros P t I N. split.
  - destruct (exists_last N) as (r & a & ->). rewrite last_last. rewrite <- app_assoc in I. clear N.
    induction r as [|b r IH]; cbn [app incr] in I; [destruct I as [I _]; inversion I; auto|]. apply IH. apply I.
  - assert (K : incr P). { clear N. induction P as [|a P IH]; cbn [app incr] in *; auto. destruct I as [I1 I2]. apply Forall_app in I1. split; [tauto|auto]. }
    clear I. destruct (exists_last N) as (r & a & ->). rewrite last_last. clear N. apply Forall_app. split; [|constructor; [apply Qcle_refl|constructor]].
    induction r as [|b r IH]; [constructor|]. cbn [app incr] in K. destruct K as [K1 K2]. constructor; auto.
    apply Forall_app in K1. destruct K1 as [_ K1]. inversion K1; subst. qlra.
Qed.

Lemma built_step : forall ip P z t v d, built P z -> incr (P ++ [t]) ->
  exists z', appendSample3 ip z t v d = Ok z' /\ built (P ++ [t]) z'.
Proof.
  intros ip P z t v d [B1 B2] I. destruct (append_built ip z t v d) as (z' & E & T & Bg & En).
  - destruct P as [|a P]. { apply map_eq_nil in B1. rewrite B1. constructor. }
    destruct (incr_last _ _ I) as [_ F]; [discriminate|]. destruct B2 as [_ B2]; [discriminate|].
    rewrite <- B1 in F. rewrite Forall_map in F. rewrite B2, <- B1. exact F.
  - intros N. assert (P <> []) by (intro C; rewrite C in B1; apply map_eq_nil in B1; auto).
    destruct (incr_last _ _ I) as [F _]; [auto|]. destruct (B2 H) as [_ ->]. exact F.
  - exists z'. split; [exact E|]. split; [congruence|]. intros _. rewrite last_last, En. split; [|reflexivity]. rewrite Bg.
    destruct (samples z) as [|p l]; cbn [map] in B1; subst P; [reflexivity|]. cbn [map hd app].
    destruct B2 as [B2 _]; [discriminate|]. rewrite B2. reflexivity.
Qed.

Lemma incr_app : forall l r, incr (l ++ r) -> incr l /\ incr r.
Proof.
  induction l as [|a l IH]; intros r I; cbn [app incr] in *; [auto|]. destruct I as [I1 I2]. apply Forall_app in I1.
  destruct (IH r I2). tauto.
Qed.
Lemma incr_prefix : forall P t l, incr (P ++ t :: l) -> incr (P ++ [t]).
Proof. intros P t l I. rewrite (app_assoc P [t] l : P ++ t :: l = (P ++ [t]) ++ l) in I. apply incr_app in I. tauto. Qed.

Lemma abs_built : forall ip l P z, built P z -> incr (P ++ map time l) ->
  exists z', abs_loop ip z l = Ok z' /\ built (P ++ map time l) z'.
Proof.
  intros ip. induction l as [|p l IH]; intros P z B I; cbn [abs_loop map] in *.
  - rewrite app_nil_r. eauto.
  - destruct (built_step ip P z (time p) (nabs (value p)) n0 B (incr_prefix _ _ _ I)) as (z1 & E1 & B1).
    unfold appendSample. rewrite E1. cbn [bind]. destruct (IH (P ++ [time p]) z1 B1) as (z' & E & B').
    + rewrite <- app_assoc. exact I.
    + rewrite <- app_assoc in B'. exists z'. auto.
Qed.
Lemma abs_same : forall ip l z, samples z <> [] -> Forall (fun q => time q <= endTime z) l -> abs_loop ip z l = Ok z.
Proof.
  intros ip. induction l as [|p l IH]; intros z N F; cbn [abs_loop]; [reflexivity|]. inversion F; subst.
  unfold appendSample. rewrite append_old by auto. cbn [bind]. auto.
Qed.

Lemma bin_built : forall f ip l r P z, built P z -> incr (P ++ map time l) -> length l = length r ->
  exists z', bin_loop f ip z l r = Ok z' /\ built (P ++ map time l) z'.
Proof.
  intros f ip. induction l as [|p l IH]; intros r P z B I Len; cbn [bin_loop map] in *.
  - rewrite app_nil_r. eauto.
  - destruct r as [|q r]; [discriminate|]. cbn [deref bind tl].
    destruct (built_step ip P z (time p) (f (value p) (value q)) n0 B (incr_prefix _ _ _ I)) as (z1 & E1 & B1).
    unfold appendSample. rewrite E1. cbn [bind]. destruct (IH r (P ++ [time p]) z1 B1) as (z' & E & B').
    + rewrite <- app_assoc. exact I.
    + cbn [length] in Len. lia.
    + rewrite <- app_assoc in B'. exists z'. auto.
Qed.
Lemma bin_same : forall f ip l r z, samples z <> [] -> Forall (fun q => time q <= endTime z) l -> length l = length r ->
  bin_loop f ip z l r = Ok z.
Proof.
  intros f ip. induction l as [|p l IH]; intros r z N F Len; cbn [bin_loop]; [reflexivity|]. inversion F; subst.
  destruct r as [|q r]; [discriminate|]. cbn [deref bind tl]. unfold appendSample. rewrite append_old by auto. cbn [bind].
  cbn [length] in Len. auto.
Qed.

Lemma atom_built : forall op ip l r P z, built P z -> incr (P ++ map time l) -> length l = length r ->
  exists z', atom_loop op ip z l r = Ok z' /\ built (P ++ map time l) z'.
Proof.
  intros op ip. induction l as [|p l IH]; intros r P z B I Len; cbn [map] in *.
  - cbn [atom_loop]. rewrite app_nil_r. eauto.
  - destruct r as [|q r]; [discriminate|]. cbn [atom_loop].
    assert (E1 : exists z1, (match op with
       | LESSTHAN => appendSample3 ip z (time p) (nsub (value q) (value p)) (nsub (deriv q) (deriv p))
       | GREATERTHAN => appendSample3 ip z (time p) (nsub (value p) (value q)) (nsub (deriv p) (deriv q))
       end) = Ok z1 /\ built (P ++ [time p]) z1).
    { destruct op; apply built_step; auto; eapply incr_prefix; eauto. }
    destruct E1 as (z1 & E1 & B1). rewrite E1. cbn [bind]. destruct (IH r (P ++ [time p]) z1 B1) as (z' & E & B').
    + rewrite <- app_assoc. exact I.
    + cbn [length] in Len. lia.
    + rewrite <- app_assoc in B'. exists z'. auto.
Qed.
Lemma atom_same : forall op ip l r z, samples z <> [] -> Forall (fun q => time q <= endTime z) l ->
  atom_loop op ip z l r = Ok z.
Proof.
  intros op ip. induction l as [|p l IH]; intros [|q r] z N F; try reflexivity. inversion F; subst. cbn [atom_loop].
  destruct op; rewrite append_old by auto; cbn [bind]; auto.
Qed.

(** ** Reading *)
Fixpoint read_times (e : Qc) (t : Qc) (TM : list Qc) (P : list Qc) (k : nat) : list Qc * Qc * nat :=
  if nleb t e then
    match TM with
    | nil => (P, t, k)
    | t' :: TM' => read_times e t' TM' (P ++ [t']) (S k)
    end
  else (P, t, k).

Lemma read_built : forall ip e pts P z t v k, built P z -> incr (P ++ map fst pts) ->
  exists z' t' v' k', read_pts ip e z t v pts k = Ok (z', t', v', k') /\
    built (fst (fst (read_times e t (map fst pts) P k))) z' /\
    t' = snd (fst (read_times e t (map fst pts) P k)) /\ k' = snd (read_times e t (map fst pts) P k).
Proof.
  intros ip e. induction pts as [|[t1 v1] pts IH]; intros P z t v k B I; cbn [read_pts map read_times fst].
  - destruct (nleb t e); do 4 eexists; (split; [reflexivity|]); cbn [fst snd]; auto.
  - cbn [map fst] in I. destruct (nleb t e); [|do 4 eexists; (split; [reflexivity|]); cbn [fst snd]; auto].
    destruct (built_step ip P z t1 v1 n0 B (incr_prefix _ _ _ I)) as (z1 & E1 & B1).
    unfold appendSample. cbn [snd]. rewrite E1. cbn [bind]. apply IH; auto. rewrite <- app_assoc. exact I.
Qed.

(** What is read: a prefix, all of it unless it goes beyond [e]. *)
Lemma read_prefix : forall e TM t P k, incr (P ++ TM) -> Forall (fun a => a <= e) P -> (P <> [] -> t = last P 0) ->
  exists U r, TM = U ++ r /\ read_times e t TM P k = (P ++ U, last (t :: U) 0, (k + length U)%nat) /\
    Forall (fun a => a <= e) (removelast (P ++ U)) /\ (last (t :: U) 0 <= e -> r = []) /\ (t <= e -> TM <> [] -> U <> []).
Proof.
  intros e. induction TM as [|t1 TM IH]; intros t P k I F L; cbn [read_times]; qcase.
  - exists [], []. rewrite !app_nil_r, Nat.add_0_r. split; [reflexivity|]. split; [reflexivity|]. split; [apply removelast_forall; auto|]. auto.
  - exists [], []. rewrite !app_nil_r, Nat.add_0_r. split; [reflexivity|]. split; [reflexivity|]. split; [apply removelast_forall; auto|]. auto.
  - destruct (Qclt_le_dec e t1) as [G|G].
    + exists [t1], TM. split; [reflexivity|]. split.
      { destruct TM; cbn [read_times]; apply nleb_false in G; rewrite G; cbn [last length]; rewrite Nat.add_1_r; reflexivity. }
      rewrite removelast_last. split; [auto|]. split; [|discriminate]. cbn [last]. intros C. exfalso. qlra.
    + destruct (IH t1 (P ++ [t1]) (S k)) as (U & r & E1 & E2 & E3 & E4 & E5).
      * rewrite <- app_assoc. exact I.
      * apply Forall_app. split; auto.
      * intros _. rewrite last_last. reflexivity.
      * exists (t1 :: U), r. rewrite E1, <- E1, E2. split; [rewrite E1; reflexivity|]. rewrite <- app_assoc in *. cbn [app] in *.
        split; [cbn [length]; rewrite Nat.add_succ_r; reflexivity|]. split; [auto|]. split; [exact E4|discriminate].
  - exists [], (t1 :: TM). rewrite !app_nil_r, Nat.add_0_r. split; [reflexivity|]. split; [reflexivity|]. split; [apply removelast_forall; auto|].
    cbn [last]. split; intros C; exfalso; qlra.
Qed.

(** ** Trimming *)
Fixpoint drop_lt (s : Qc) (U : list Qc) : list Qc :=
  match U with nil => nil | a :: U' => if nltb a s then drop_lt s U' else U end.
Definition front_times (s b : Qc) (U : list Qc) : list Qc :=
  if nltb s b then s :: U
  else match drop_lt s U with
       | nil => [s]
       | f :: l => if nltb s f then s :: f :: l else f :: l
       end.
Definition cut (t s : Qc) (U : list Qc) : list Qc :=
  match pop_back_while (fun a => nltb t a) U with nil => [s] | l => l end.

Lemma pop_front_times : forall s (l : list smp) d, map time (snd (pop_front_lt s d l)) = drop_lt s (map time l).
Proof.
  intros s. induction l as [|p l IH]; intros d; cbn [pop_front_lt map drop_lt]; [reflexivity|].
  destruct (nltb (time p) s); [apply IH|reflexivity].
Qed.
Lemma pop_back_times : forall t (l : list smp),
  map time (pop_back_while (fun p => nltb t (time p)) l) = pop_back_while (fun a => nltb t a) (map time l).
Proof. intros t l. symmetry. apply pop_back_map. reflexivity. Qed.

Lemma resize_times : forall x s t v, samples x <> [] -> endTime x = t -> s <= t ->
  exists z, resize x s t v = Ok z /\ map time (samples z) = cut t s (front_times s (beginTime x) (map time (samples x))) /\
    beginTime z = s /\ endTime z = t.
Proof.
  intros x s t v N X H. unfold resize. rewrite eps_lt by auto. assert (B : nltb t s = false) by (apply nltb_false; auto). rewrite B.
  assert (F : exists l, resize_front x s = Ok (l, t) /\ map time l = front_times s (beginTime x) (map time (samples x))).
  { unfold resize_front, front_times. destruct (nltb s (beginTime x)).
    - destruct (samples x) as [|f r]; [congruence|]. cbn [deref bind]. rewrite X. eexists. split; reflexivity.
    - rewrite <- (pop_front_times s (samples x) default_sample). destruct (pop_front_lt s default_sample (samples x)) as [f [|q l]]; cbn [snd map].
      + rewrite X, B. eexists. split; reflexivity.
      + destruct (nltb s (time q)); rewrite X; eexists; split; reflexivity. }
  destruct F as (l & F1 & F2). rewrite F1. cbn [bind]. unfold resize_back.
  assert (B2 : nltb t t = false) by (apply nltb_false; apply Qcle_refl). rewrite B2. cbn [bind].
  eexists. split; [reflexivity|]. cbn [samples beginTime endTime]. split; [|auto]. rewrite <- F2. unfold cut.
  rewrite <- pop_back_times. destruct (pop_back_while (fun p => nltb t (time p)) l); reflexivity.
Qed.

Lemma drop_suffix : forall s U, exists pre, U = pre ++ drop_lt s U /\ forall f l, drop_lt s U = f :: l -> s <= f.
Proof.
  intros s. induction U as [|a U IH]; cbn [drop_lt].
  - exists []. split; [reflexivity|]. discriminate.
  - qcase.
    + destruct IH as (pre & E1 & E2). exists (a :: pre). split; [cbn [app]; congruence|auto].
    + exists []. split; [reflexivity|]. intros f l Ef. injection Ef as <- <-. exact Eb.
Qed.

Lemma front_facts : forall s b U t, incr U -> U <> [] -> Forall (fun a => b <= a) U -> s <= t ->
  Forall (fun a => a <= t) (removelast U) ->
  exists l, front_times s b U = s :: l /\ incr (s :: l) /\ Forall (fun a => a <= t) (removelast (s :: l)).
Proof.
  intros s b U t I N B H F. unfold front_times. qcase.
  - exists U. split; [reflexivity|]. split.
    + split; [|exact I]. eapply Forall_impl; [|exact B]. cbn. intros. qlra.
    + destruct U as [|u U]; [congruence|]. change (removelast (s :: u :: U)) with (s :: removelast (u :: U)). constructor; auto.
  - destruct (drop_suffix s U) as (pre & E1 & E2). destruct (drop_lt s U) as [|f l] eqn:Ed.
    + exists []. split; [reflexivity|]. split; [split; constructor|]. constructor.
    + specialize (E2 f l eq_refl). rewrite E1 in I, F. apply incr_app in I. destruct I as [_ I].
      rewrite removelast_app in F by discriminate. apply Forall_app in F. destruct F as [_ F]. qcase.
      * exists (f :: l). split; [reflexivity|]. split.
        -- split; [|exact I]. destruct I as [I _]. constructor; [auto|]. eapply Forall_impl; [|exact I]. cbn. intros. qlra.
        -- change (removelast (s :: f :: l)) with (s :: removelast (f :: l)). constructor; auto.
      * assert (f = s) by (apply Qcle_antisym; auto). subst f. exists l. auto.
Qed.

Lemma cut_last : forall t s P a, P <> [] -> Forall (fun x => x <= t) P -> t < a -> cut t s (P ++ [a]) = P.
Proof.
  intros t s P a N F L. unfold cut, pop_back_while. rewrite rev_app_distr. cbn [rev app drop_while].
  assert (B : nltb t a = true) by (apply nltb_true; auto). rewrite B. destruct (exists_last N) as (r & c & ->).
  apply Forall_app in F. destruct F as [_ F]. inversion F; subst.
  rewrite rev_app_distr. cbn [rev app drop_while]. assert (B2 : nltb t c = false) by (apply nltb_false; auto). rewrite B2.
  cbn [rev]. rewrite rev_involutive. destruct (r ++ [c]) eqn:E; [destruct r; discriminate|reflexivity].
Qed.
Lemma cut_none : forall t s P, P <> [] -> Forall (fun x => x <= t) P -> cut t s P = P.
Proof.
  intros t s P N F. unfold cut, pop_back_while. destruct (exists_last N) as (r & c & ->).
  apply Forall_app in F. destruct F as [_ F]. inversion F; subst.
  rewrite rev_app_distr. cbn [rev app drop_while]. assert (B2 : nltb t c = false) by (apply nltb_false; auto). rewrite B2.
  cbn [rev]. rewrite rev_involutive. destruct (r ++ [c]) eqn:E; [destruct r; discriminate|reflexivity].
Qed.

Lemma cut_facts : forall t s l, s <= t -> incr (s :: l) -> Forall (fun a => a <= t) (removelast (s :: l)) ->
  exists l', cut t s (s :: l) = s :: l' /\ incr (s :: l') /\ Forall (fun a => a <= t) (s :: l').
Proof.
  intros t s l H I F. destruct (exists_last (l := s :: l)) as (r & c & E); [discriminate|]. rewrite E in *. rewrite removelast_last in F.
  destruct (Qclt_le_dec t c) as [C|C].
  - destruct r as [|r0 r]; [cbn [app] in E; injection E as E1 E2; subst; exfalso; qlra|].
    rewrite cut_last; auto; [|discriminate]. cbn [app] in E. injection E as E1 E2. subst r0. exists r.
    split; [reflexivity|]. split; [|auto]. apply (incr_app (s :: r) [c]) in I. tauto.
  - assert (G : Forall (fun a => a <= t) (r ++ [c])) by (apply Forall_app; auto).
    rewrite cut_none; auto; [|destruct r; discriminate]. rewrite <- E in *. exists l. auto.
Qed.

Lemma front_same : forall s U l, U = s :: l -> front_times s s U = U.
Proof.
  intros s U l ->. unfold front_times, drop_lt. assert (B : nltb s s = false) by (apply nltb_false; apply Qcle_refl).
  rewrite !B. reflexivity.
Qed.

(** Times of a trimmed leaf, from the times read. *)
Definition trim_end (e en t : Qc) : Qc := if nltb e t then e else en.
Definition trim_begin (s en : Qc) : Qc := if nltb s en then s else en.
Lemma trim_times : forall n z t v, samples z <> [] -> let en := trim_end (end_time n) (endTime z) t in
  exists z', trim_read n z t v = Ok z' /\
    map time (samples z') = cut en (trim_begin (start_time n) en) (front_times (trim_begin (start_time n) en) (beginTime z) (map time (samples z))) /\
    beginTime z' = trim_begin (start_time n) en /\ endTime z' = en.
Proof.
  intros n z t v N en. unfold trim_read.
  assert (X : exists x, (if nltb (end_time n) t then mkSig (samples z) (beginTime z) (end_time n) else z) = x /\ samples x = samples z /\ beginTime x = beginTime z /\ endTime x = en).
  { eexists. split; [reflexivity|]. unfold en, trim_end. destruct (nltb (end_time n) t); auto. }
  destruct X as (x & -> & X1 & X2 & X3). rewrite X3.
  assert (Y : (if nltb (start_time n) en then resize x (start_time n) (smax (start_time n) en) v else resize x en en v)
              = resize x (trim_begin (start_time n) en) en v).
  { unfold trim_begin. qcase; [rewrite smax_max by qlra|]; reflexivity. }
  rewrite Y. rewrite <- X1, <- X2. apply resize_times; auto; [congruence|]. unfold trim_begin. qcase; qlra.
Qed.

(** ** Leaves *)
Record shaped (L : list Qc) (bt et : Qc) : Prop := {
  sh_head : exists l, L = bt :: l;
  sh_incr : incr L;
  sh_end : Forall (fun a => a <= et) L }.

(** What is known of a leaf object after it has been read once. *)
Record leaf_done (TM : list Qc) (s e : Qc) (L : list Qc) (bt et : Qc) (n : nst Qc) (k : nat) : Prop := {
  ld_start : start_time n = s;
  ld_stop : end_time n = e;
  ld_begin : bt = trim_begin s et;
  ld_z : map time (samples (nz n)) = L /\ beginTime (nz n) = bt /\ endTime (nz n) = et;
  ld_rest : skipn k TM = [] \/ (et = e /\ Forall (fun a => e < a) (skipn k TM)) }.

Definition first_len (TM : list Qc) (e : Qc) : list Qc * Qc * nat := read_times e 0 TM [] 0.
Definition first_end (TM : list Qc) (e : Qc) : Qc :=
  let U := fst (fst (first_len TM e)) in trim_end e (last U 0) (snd (fst (first_len TM e))).
Definition first_begin (TM : list Qc) (s e : Qc) : Qc := trim_begin s (first_end TM e).
Definition first_times (TM : list Qc) (s e : Qc) : list Qc :=
  let U := fst (fst (first_len TM e)) in
  cut (first_end TM e) (first_begin TM s e) (front_times (first_begin TM s e) (hd 0 U) U).

Lemma last_nonempty : forall (U : list Qc) t, U <> [] -> last (t :: U) 0 = last U 0.
Proof. intros U t N. destruct U; [congruence|reflexivity]. Qed.

Lemma first_facts : forall TM s e, incr TM -> TM <> [] -> 0 <= e ->
  exists U r, TM = U ++ r /\ U <> [] /\ incr U /\ first_len TM e = (U, last U 0, length U) /\
    first_end TM e = (if nltb e (last U 0) then e else last U 0) /\
    (r = [] \/ (first_end TM e = e /\ Forall (fun a => e < a) r)) /\
    shaped (first_times TM s e) (first_begin TM s e) (first_end TM e).
Proof.
  intros TM s e I N H. destruct (read_prefix e TM 0 [] 0) as (U & r & E1 & E2 & E3 & E4 & E5); auto.
  specialize (E5 H N). cbn [app] in *. rewrite Nat.add_0_l in E2.
  rewrite last_nonempty in E2, E4 by auto.
  exists U, r. split; [auto|]. split; [auto|]. assert (IU : incr U) by (rewrite E1 in I; apply incr_app in I; tauto).
  split; [auto|]. split; [exact E2|].
  assert (FE : first_end TM e = (if nltb e (last U 0) then e else last U 0)).
  { unfold first_end, first_len. rewrite E2. reflexivity. }
  split; [exact FE|].
  assert (FR : Forall (fun a => a <= first_end TM e) (removelast U)).
  { rewrite FE. qcase; [exact E3|]. apply removelast_forall.
    assert (X : exists x, incr (U ++ [x])).
    { exists (last U 0 + 1). clear - IU E5. assert (Y : Forall (fun a => a < last U 0 + 1) U).
      { destruct (exists_last E5) as (q & c & ->). rewrite last_last. clear E5. apply Forall_app. split; [|constructor; [qlra|constructor]].
        induction q as [|d q IH]; [constructor|]. cbn [app incr] in IU. destruct IU as [K1 K2]. apply Forall_app in K1. destruct K1 as [_ K1]. inversion K1; subst.
        constructor; [qlra|auto]. }
      revert Y. generalize (last U 0 + 1). clear E5. induction U as [|a U IH]; intros x Y; cbn [app incr]; [split; constructor|].
      inversion Y; subst. destruct IU as [K1 K2]. split; [apply Forall_app; auto|auto]. }
    destruct X as (x & X). apply incr_last in X; auto. tauto. }
  split.
  - destruct (Qclt_le_dec e (last U 0)) as [L|L]; [|left; auto].
    right. rewrite FE. assert (B : nltb e (last U 0) = true) by (apply nltb_true; auto). rewrite B. split; [reflexivity|].
    rewrite E1 in I. clear - I L E5. destruct (exists_last E5) as (q & c & ->). rewrite last_last in L. rewrite <- app_assoc in I.
    apply incr_app in I. destruct I as [_ [I _]]. eapply Forall_impl; [|exact I]. cbn. intros. qlra.
  - assert (BE : first_begin TM s e <= first_end TM e) by (unfold first_begin, trim_begin; qcase; qlra).
    unfold first_times, first_len. rewrite E2. cbn [fst].
    assert (HB : Forall (fun a => hd 0 U <= a) U).
    { destruct U as [|u U]; [congruence|]. cbn [hd]. destruct IU as [K _]. constructor; [apply Qcle_refl|]. eapply Forall_impl; [|exact K]. cbn. intros. qlra. }
    destruct (front_facts (first_begin TM s e) (hd 0 U) U (first_end TM e) IU E5 HB BE FR) as (l & G1 & G2 & G3).
    rewrite G1. destruct (cut_facts _ _ _ BE G2 G3) as (l' & C1 & C2 & C3). rewrite C1. constructor; eauto.
Qed.

Lemma leaf_first_pass : forall TM s e ip pts n v, incr TM -> TM <> [] -> 0 <= e -> map fst pts = TM ->
  nz n = empty_signal -> start_time n = s -> end_time n = e ->
  exists z t x k, read_pts ip e (nz n) n0 v pts 0 = Ok (z, t, x, k) /\
    forall w', exists z', trim_read n z t w' = Ok z' /\
      leaf_done TM s e (first_times TM s e) (first_begin TM s e) (first_end TM e) (with_z n z') k.
Proof.
  intros TM s e ip pts n v I N H P Z Hs He.
  destruct (read_built ip e pts [] (nz n) n0 v 0) as (z & t & x & k & R1 & R2 & R3 & R4).
  { rewrite Z. split; [reflexivity|congruence]. } { rewrite P. exact I. }
  rewrite P in *. change n0 with 0 in R2, R3, R4. fold (first_len TM e) in R2, R3, R4.
  destruct (first_facts TM s e I N H) as (U & r & F1 & F2 & F3 & F4 & F5 & F6 & F7). pose proof F4 as F4'.
  rewrite F4 in R2, R3, R4. cbn [fst snd] in *. destruct R2 as [B1 B2]. destruct (B2 F2) as [B3 B4].
  exists z, t, x, k. split; [exact R1|]. intros w'.
  assert (NZ : samples z <> []) by (intro C; rewrite C in B1; cbn in B1; congruence).
  destruct (trim_times n z t w' NZ) as (z' & T1 & T2 & T3 & T4).
  assert (X : trim_end (end_time n) (endTime z) t = first_end TM e).
  { unfold first_end. rewrite F4'. cbn [fst snd]. rewrite He, B4, R3. reflexivity. }
  rewrite X, Hs in *. fold (first_begin TM s e) in T2, T3.
  exists z'. split; [exact T1|]. constructor; cbn [with_z nz start_time end_time]; auto.
  - split; [|auto]. rewrite T2. unfold first_times. rewrite F4'. cbn [fst]. rewrite B1, B3. reflexivity.
  - assert (SK : skipn k TM = r) by (rewrite F1, R4, skipn_app, skipn_all, Nat.sub_diag; reflexivity). rewrite SK. exact F6.
Qed.

Lemma shaped_snoc : forall L bt et a, shaped L bt et -> et < a -> incr (L ++ [a]).
Proof.
  intros L bt et a [_ I F] H. clear bt. induction L as [|b L IH]; cbn [app incr]; [split; constructor|].
  inversion F; subst. destruct I as [I1 I2]. split; [|auto]. apply Forall_app. split; auto. constructor; [qlra|constructor].
Qed.

Lemma leaf_next_pass : forall TM s e L bt et ip pts n k v, shaped L bt et -> map fst pts = TM -> 0 <= e ->
  leaf_done TM s e L bt et n k ->
  exists z t x k', read_pts ip e (nz n) n0 v (skipn k pts) k = Ok (z, t, x, k') /\
    forall w', exists z', trim_read n z t w' = Ok z' /\ leaf_done TM s e L bt et (with_z n z') k'.
Proof.
  intros TM s e L bt et ip pts n k v SH P H [Hs He Hb (Z1 & Z2 & Z3) R].
  pose proof SH as [(l & HL) I F].
  assert (NZ : samples (nz n) <> []) by (intro C; rewrite C in Z1; cbn in Z1; congruence).
  assert (B0 : nleb n0 e = true) by (apply nleb_true; exact H).
  assert (SK : map fst (skipn k pts) = skipn k TM) by (rewrite <- P; symmetry; apply skipn_map).
  assert (BT : bt <= et) by (rewrite Hb; unfold trim_begin; qcase; qlra).
  destruct (skipn k pts) as [|[t1 v1] r] eqn:EK.
  - cbn [read_pts]. rewrite B0. exists (nz n), n0, v, k. split; [reflexivity|]. intros w'.
    destruct (trim_times n (nz n) n0 w' NZ) as (z' & T1 & T2 & T3 & T4).
    assert (X : trim_end (end_time n) (endTime (nz n)) n0 = et).
    { unfold trim_end. rewrite He. assert (B : nltb e n0 = false) by (apply nltb_false; exact H). rewrite B. exact Z3. }
    rewrite X, Hs, <- Hb, Z1, Z2 in *. rewrite (front_same _ _ _ HL), cut_none in T2; auto; [|rewrite HL; discriminate].
    exists z'. split; [exact T1|]. constructor; cbn [with_z nz start_time end_time]; auto.
  - cbn [map fst] in SK. destruct R as [R|[R1 R2]]; [rewrite R in SK; discriminate|].
    rewrite <- SK in R2. assert (Q1 : e < t1) by (inversion R2; auto). assert (Q2 : Forall (fun a => e < a) (map fst r)) by (inversion R2; auto).
    cbn [read_pts]. rewrite B0.
    assert (FZ : Forall (fun q => time q <= endTime (nz n)) (samples (nz n))) by (rewrite Z3; apply (proj1 (Forall_map time (fun a => a <= et) _)); rewrite Z1; exact F).
    destruct (append_built ip (nz n) t1 v1 n0 FZ) as (z1 & A1 & A2 & A3 & A4). { intros _. rewrite Z3, R1. exact Q1. }
    unfold appendSample. rewrite A1. cbn [bind].
    assert (RD : read_pts ip e z1 t1 v1 r (S k) = Ok (z1, t1, v1, S k)).
    { assert (B1 : nleb t1 e = false) by (apply nleb_false; auto). destruct r as [|[? ?] ?]; cbn [read_pts]; rewrite B1; reflexivity. }
    rewrite RD. do 4 eexists. split; [reflexivity|]. intros w'.
    assert (NZ1 : samples z1 <> []).
    { intro C. rewrite C in A2. destruct (map time (samples (nz n))); discriminate. }
    destruct (trim_times n z1 t1 w' NZ1) as (z' & T1 & T2 & T3 & T4).
    assert (X : trim_end (end_time n) (endTime z1) t1 = et).
    { unfold trim_end. rewrite He. assert (B : nltb e t1 = true) by (apply nltb_true; auto). rewrite B. auto. }
    assert (B3 : beginTime z1 = bt).
    { rewrite A3. destruct (samples (nz n)); [congruence|]. cbn [map hd]. rewrite Z2. reflexivity. }
    rewrite X, Hs, <- Hb, A2, B3, Z1 in *. rewrite HL in T2.
    rewrite (front_same _ _ (l ++ [t1])) in T2 by reflexivity. rewrite cut_last in T2; auto; [|discriminate|rewrite <- HL; exact F|rewrite R1; exact Q1].
    exists z'. split; [exact T1|]. constructor; cbn [with_z nz start_time end_time]; auto.
    { rewrite T2. auto. }
    right. split; [exact R1|]. rewrite (skipn_next _ _ _ _ _ (eq_sym SK)). exact Q2.
Qed.

(** ** Expressions *)
Section Tree.
Variable E : env Qc.
Variable w : nat.
Hypothesis TR : trace w (e_data E).

Let TM := map row_time (e_data E).

Lemma times_incr : incr TM.
Proof.
  destruct TR as (_ & R & _). unfold TM, column in *. clear TR. induction (e_data E) as [|r l IH]; cbn [map incr]; [exact I|].
  cbn [map rising fst] in R. destruct R as [R1 R2]. split; [|auto].
  rewrite Forall_map in *. cbn [fst] in R1. exact R1.
Qed.
Lemma times_some : TM <> [].
Proof. destruct TR as (D & _). unfold TM. destruct (e_data E); [congruence|discriminate]. Qed.
Lemma column_times : forall c, map fst (column (e_data E) c) = TM.
Proof. intros c. unfold column. rewrite map_map. reflexivity. Qed.
Lemma level_times : forall c, map fst (level (e_data E) c) = TM.
Proof. intros c. unfold level. rewrite map_map. reflexivity. Qed.
Lemma wide : forall k c, (c <= w)%nat -> Forall (fun r => (c < length r)%nat) (rows_from (e_data E) k).
Proof.
  intros k c H. destruct TR as (_ & _ & F). unfold rows_from. apply Forall_forall. intros r I.
  rewrite Forall_forall in F. assert (J : In r (e_data E)).
  { rewrite <- (firstn_skipn k (e_data E)). apply in_or_app. auto. }
  specialize (F r J). lia.
Qed.

Lemma signal_step : forall n k var c (P : signal Qc -> nat -> Prop), (1 <= c <= w)%nat -> 0 <= end_time n ->
  (forall v, exists z t x k', read_pts (e_ip E) (end_time n) (nz n) n0 v (skipn k (column (e_data E) c)) k = Ok (z, t, x, k') /\
     forall w', exists z', trim_read n z t w' = Ok z' /\ P z' k' /\ samples z' <> []) ->
  exists v z' k', compute_rob E (TSig n (Some k) var c) = Ok (v, TSig (with_z n z') (Some k') var c) /\ P z' k'.
Proof.
  intros n k var c P S H X. destruct TR as (D & _ & _).
  assert (B : nleb n0 (end_time n) = true) by (apply nleb_true; exact H).
  cbn [compute_rob]. unfold compute_signal. destruct c as [|c]; [lia|]. rewrite B.
  destruct (e_data E) eqn:ED; [congruence|]. rewrite <- ED in *.
  rewrite read_signal_pts by (apply wide; lia).
  destruct (X n0) as (z & t & x & k' & R1 & R2). unfold column in R1. rewrite skipn_map in R1.
  unfold column, rows_from. rewrite R1. cbn [bind].
  destruct (R2 x) as (z' & T1 & T2 & T3). rewrite T1. cbn [bind].
  destruct (samples z') as [|q r] eqn:SZ; [congruence|]. cbn [deref bind].
  do 3 eexists. split; [reflexivity|]. exact T2.
Qed.

Lemma constant_step : forall n k p c (P : signal Qc -> nat -> Prop), 0 <= end_time n ->
  (forall v, exists z t x k', read_pts (e_ip E) (end_time n) (nz n) n0 v (skipn k (level (e_data E) v)) k = Ok (z, t, x, k') /\
     forall w', exists z', trim_read n z t w' = Ok z' /\ P z' k') ->
  exists v z' k' c', compute_rob E (TConst n (Some k) p c) = Ok (v, TConst (with_z n z') (Some k') p c') /\ P z' k'.
Proof.
  intros n k p c P H X. destruct TR as (D & _ & _).
  assert (B : nleb n0 (end_time n) = true) by (apply nleb_true; exact H).
  cbn [compute_rob]. unfold compute_constant. rewrite B.
  generalize (match p with None => c | Some _ => match get_param E p with Some w0 => w0 | None => n0 end end). intros v.
  destruct (e_data E) eqn:ED; [congruence|]. rewrite <- ED in *.
  rewrite read_constant_pts. 2:{ eapply Forall_impl; [|apply (wide k 0); lia]. intros r W ->. cbn in W. lia. }
  destruct (X v) as (z & t & x & k' & R1 & R2). unfold level in R1. rewrite skipn_map in R1.
  unfold level, rows_from. rewrite R1. cbn [bind].
  destruct (R2 v) as (z' & T1 & T2). rewrite T1. cbn [bind].
  do 4 eexists. split; [reflexivity|]. exact T2.
Qed.

Definition start (s e : Qc) : nst Qc := mkN empty_signal empty_signal empty_signal s e.

(** Expression objects before the first pass. *)
Fixpoint xini (s e : Qc) (t : tree Qc) : Prop :=
  match t with
  | TSig n k _ c => n = start s e /\ k = Some 0%nat /\ (1 <= c <= w)%nat
  | TConst n k _ _ => n = start s e /\ k = Some 0%nat
  | TAbs n c => n = start s e /\ xini s e c
  | TPlus n l r | TMinus n l r | TMult n l r => n = start s e /\ xini s e l /\ xini s e r
  | _ => False
  end.

Definition xnode (L : list Qc) (n : nst Qc) : Prop :=
  map time (samples (nz n)) = L /\ beginTime (nz n) = hd 0 L /\ endTime (nz n) = last L 0.

(** ... and after it. *)
Fixpoint xdone (s e : Qc) (L : list Qc) (bt et : Qc) (t : tree Qc) : Prop :=
  match t with
  | TSig n k _ c => (1 <= c <= w)%nat /\ exists k0, k = Some k0 /\ leaf_done TM s e L bt et n k0
  | TConst n k _ _ => exists k0, k = Some k0 /\ leaf_done TM s e L bt et n k0
  | TAbs n c => xnode L n /\ xdone s e L bt et c
  | TPlus n l r | TMinus n l r | TMult n l r => xnode L n /\ xdone s e L bt et l /\ xdone s e L bt et r
  | _ => False
  end.

Lemma shaped_last : forall L bt et, shaped L bt et -> Forall (fun a => a <= last L 0) L.
Proof.
  intros L bt et S. destruct S as [(l & HL) I F]. destruct (incr_last L (et + 1)) as [_ G]; auto; [|rewrite HL; discriminate].
  apply (shaped_snoc L bt et); [constructor; eauto|qlra].
Qed.

Lemma xdone_times : forall s e L bt et t, shaped L bt et -> xdone s e L bt et t ->
  map time (samples (tz t)) = L /\ Forall (fun q => time q <= endTime (tz t)) (samples (tz t)) /\ beginTime (tz t) = bt.
Proof.
  intros s e L bt et t S X.
  assert (C : map time (samples (tz t)) = L /\ (endTime (tz t) = et \/ endTime (tz t) = last L 0) /\ beginTime (tz t) = bt).
  { destruct S as [(l & HL) _ _].
    destruct t; cbn [xdone tz node] in *; try contradiction;
      try (destruct X as [(X1 & X2 & X3) _]; split; [exact X1|]; split; [auto|]; transitivity (hd 0 L); [exact X2|rewrite HL; reflexivity]).
    - destruct X as (_ & k0 & _ & [_ _ _ (Z1 & Z2 & Z3) _]). auto.
    - destruct X as (k0 & _ & [_ _ _ (Z1 & Z2 & Z3) _]). auto. }
  destruct C as (C1 & C2 & C3). split; [exact C1|]. split; [|exact C3].
  apply (proj1 (Forall_map time (fun a => a <= endTime (tz t)) _)). rewrite C1.
  destruct C2 as [-> | ->]; [apply S|eapply shaped_last; eauto].
Qed.

Lemma times_nonempty : forall L bt et (z : signal Qc), shaped L bt et -> map time (samples z) = L -> exists p l, samples z = p :: l.
Proof.
  intros L bt et z [(l & HL) _ _] H. destruct (samples z) as [|p r]; [rewrite HL in H; discriminate|eauto].
Qed.
Lemma front_ok : forall L bt et (z : signal Qc), shaped L bt et -> map time (samples z) = L -> exists v, front_value z = Ok v.
Proof. intros L bt et z S H. destruct (times_nonempty _ _ _ _ S H) as (p & l & Ep). unfold front_value. rewrite Ep. cbn [deref bind]. eauto. Qed.

Lemma built_empty : built [] empty_signal.
Proof. split; [reflexivity|congruence]. Qed.
Lemma built_xnode : forall L bt et n z, shaped L bt et -> built L z -> xnode L (with_z n z).
Proof.
  intros L bt et n z [(l & HL) _ _] [B1 B2]. unfold xnode. cbn [with_z nz]. split; [exact B1|]. apply B2. rewrite HL. discriminate.
Qed.
Lemma xnode_old : forall L bt et n, shaped L bt et -> xnode L n -> samples (nz n) <> [] /\
  forall l : list smp, map time l = L -> Forall (fun q => time q <= endTime (nz n)) l.
Proof.
  intros L bt et n S (X1 & X2 & X3). split.
  - destruct (times_nonempty _ _ _ _ S X1) as (p & l & ->). discriminate.
  - intros l H. apply (proj1 (Forall_map time (fun a => a <= endTime (nz n)) _)). rewrite H, X3. eapply shaped_last; eauto.
Qed.
Lemma with_z_same : forall n : nst Qc, with_z n (nz n) = n.
Proof. intros []. reflexivity. Qed.

Lemma first_shaped : forall s e, 0 <= e -> shaped (first_times TM s e) (first_begin TM s e) (first_end TM e).
Proof. intros s e H. destruct (first_facts TM s e times_incr times_some H) as (U & r & F). tauto. Qed.

Lemma xpass1 : forall s e t, 0 <= e -> xini s e t ->
  exists v t', compute_rob E t = Ok (v, t') /\ xdone s e (first_times TM s e) (first_begin TM s e) (first_end TM e) t'.
Proof.
  intros s e t H. pose proof (first_shaped s e H) as S. pose proof times_incr as TI. pose proof times_some as TN.
  assert (BIN : forall f l' r', xdone s e (first_times TM s e) (first_begin TM s e) (first_end TM e) l' ->
    xdone s e (first_times TM s e) (first_begin TM s e) (first_end TM e) r' ->
    exists z v, bin_loop f (e_ip E) empty_signal (samples (tz l')) (samples (tz r')) = Ok z /\ front_value z = Ok v /\ xnode (first_times TM s e) (with_z (start s e) z)).
  { intros f l' r' X1 X2. destruct (xdone_times _ _ _ _ _ _ S X1) as (T1 & _). destruct (xdone_times _ _ _ _ _ _ S X2) as (T2 & _).
    destruct (bin_built f (e_ip E) (samples (tz l')) (samples (tz r')) [] empty_signal built_empty) as (z & Ez & Bz).
    - cbn [app]. rewrite T1. apply S.
    - rewrite <- (map_length time (samples (tz l'))), <- (map_length time (samples (tz r'))). congruence.
    - cbn [app] in Bz. rewrite T1 in Bz. destruct (front_ok _ _ _ z S (proj1 Bz)) as (v & Ev). exists z, v.
      split; [exact Ez|]. split; [exact Ev|]. eapply built_xnode; eauto. }
  induction t as [n k var c|n k p c|n c IH|n l IHl r IHr|n l IHl r IHr|n l IHl r IHr|n l IHl op r IHr|n c IH|n l IHl r IHr|n l IHl r IHr|n l IHl r IHr|n i c IH|n i c IH|n l IHl i r IHr]; cbn [xini]; intros X; try contradiction.
  - destruct X as (-> & -> & C).
    destruct (signal_step (start s e) 0 var c (fun z k => leaf_done TM s e (first_times TM s e) (first_begin TM s e) (first_end TM e) (with_z (start s e) z) k) C H) as (v & z' & k' & C1 & C2).
    + intros v. destruct (leaf_first_pass TM s e (e_ip E) (column (e_data E) c) (start s e) v) as (z & t & x & k & R1 & R2); auto using column_times.
      exists z, t, x, k. split; [exact R1|]. intros w'. destruct (R2 w') as (z' & T1 & T2). exists z'. split; [exact T1|]. split; [exact T2|].
      destruct (times_nonempty _ _ _ _ S (proj1 (ld_z _ _ _ _ _ _ _ _ T2))) as (p & l & Ep). cbn [with_z nz] in Ep. rewrite Ep. discriminate.
    + do 2 eexists. split; [exact C1|]. cbn [xdone]. eauto.
  - destruct X as (-> & ->).
    destruct (constant_step (start s e) 0 p c (fun z k => leaf_done TM s e (first_times TM s e) (first_begin TM s e) (first_end TM e) (with_z (start s e) z) k) H) as (v & z' & k' & c' & C1 & C2).
    + intros v. destruct (leaf_first_pass TM s e (e_ip E) (level (e_data E) v) (start s e) v) as (z & t & x & k & R1 & R2); auto using level_times.
      exists z, t, x, k. split; [exact R1|]. exact R2.
    + do 2 eexists. split; [exact C1|]. cbn [xdone]. eauto.
  - destruct X as (-> & X). destruct (IH X) as (v & c' & C1 & C2). cbn [compute_rob]. rewrite C1. cbn [bind].
    destruct (xdone_times _ _ _ _ _ _ S C2) as (T1 & _).
    destruct (abs_built (e_ip E) (samples (tz c')) [] empty_signal built_empty) as (z & Ez & Bz); [cbn [app]; rewrite T1; apply S|].
    cbn [app] in Bz. rewrite T1 in Bz. destruct (front_ok _ _ _ z S (proj1 Bz)) as (v' & Ev).
    cbn [start nz]. rewrite Ez. cbn [bind]. rewrite Ev. cbn [bind]. do 2 eexists. split; [reflexivity|]. cbn [xdone]. split; [|exact C2].
    apply (built_xnode _ _ _ (start s e) z S Bz).
  - destruct X as (-> & X1 & X2). destruct (IHl X1) as (v & l' & C1 & C2). destruct (IHr X2) as (v2 & r' & D1 & D2).
    cbn [compute_rob]. rewrite C1, D1. cbn [bind]. destruct (BIN nadd l' r' C2 D2) as (z & vz & B1 & B2 & B3).
    cbn [start nz]. rewrite B1. cbn [bind]. rewrite B2. cbn [bind]. do 2 eexists. split; [reflexivity|]. cbn [xdone]. auto.
  - destruct X as (-> & X1 & X2). destruct (IHl X1) as (v & l' & C1 & C2). destruct (IHr X2) as (v2 & r' & D1 & D2).
    cbn [compute_rob]. rewrite C1, D1. cbn [bind]. destruct (BIN nsub l' r' C2 D2) as (z & vz & B1 & B2 & B3).
    cbn [start nz]. rewrite B1. cbn [bind]. rewrite B2. cbn [bind]. do 2 eexists. split; [reflexivity|]. cbn [xdone]. auto.
  - destruct X as (-> & X1 & X2). destruct (IHl X1) as (v & l' & C1 & C2). destruct (IHr X2) as (v2 & r' & D1 & D2).
    cbn [compute_rob]. rewrite C1, D1. cbn [bind]. destruct (BIN nmul l' r' C2 D2) as (z & vz & B1 & B2 & B3).
    cbn [start nz]. rewrite B1. cbn [bind]. rewrite B2. cbn [bind]. do 2 eexists. split; [reflexivity|]. cbn [xdone]. auto.
Qed.

Lemma xpass2 : forall s e L bt et t, 0 <= e -> shaped L bt et -> xdone s e L bt et t ->
  exists v t', compute_rob E t = Ok (v, t') /\ xdone s e L bt et t' /\ endTime (tz t') = endTime (tz t).
Proof.
  intros s e L bt et t H S.
  assert (BIN : forall f n l' r', xnode L n -> xdone s e L bt et l' -> xdone s e L bt et r' ->
    exists v, bin_loop f (e_ip E) (nz n) (samples (tz l')) (samples (tz r')) = Ok (nz n) /\ front_value (nz n) = Ok v).
  { intros f n l' r' XN X1 X2. destruct (xdone_times _ _ _ _ _ _ S X1) as (T1 & _). destruct (xdone_times _ _ _ _ _ _ S X2) as (T2 & _).
    destruct (xnode_old _ _ _ _ S XN) as [N F]. destruct (front_ok _ _ _ (nz n) S (proj1 XN)) as (v & Ev). exists v. split; [|exact Ev].
    apply bin_same; auto. rewrite <- (map_length time (samples (tz l'))), <- (map_length time (samples (tz r'))). congruence. }
  induction t as [n k var c|n k p c|n c IH|n l IHl r IHr|n l IHl r IHr|n l IHl r IHr|n l IHl op r IHr|n c IH|n l IHl r IHr|n l IHl r IHr|n l IHl r IHr|n i c IH|n i c IH|n l IHl i r IHr]; cbn [xdone]; intros X; try contradiction.
  - destruct X as (C & k0 & -> & LD). pose proof (ld_stop _ _ _ _ _ _ _ _ LD) as He.
    destruct (signal_step n k0 var c (fun z k => leaf_done TM s e L bt et (with_z n z) k) C) as (v & z' & k' & C1 & C2).
    + rewrite He. exact H.
    + intros v. rewrite He. destruct (leaf_next_pass TM s e L bt et (e_ip E) (column (e_data E) c) n k0 v S (column_times c) H LD) as (z & t & x & k & R1 & R2).
      exists z, t, x, k. split; [exact R1|]. intros w'. destruct (R2 w') as (z' & T1 & T2). exists z'. split; [exact T1|]. split; [exact T2|].
      destruct (times_nonempty _ _ _ _ S (proj1 (ld_z _ _ _ _ _ _ _ _ T2))) as (p & l & Ep). cbn [with_z nz] in Ep. rewrite Ep. discriminate.
    + do 2 eexists. split; [exact C1|]. cbn [xdone tz node with_z nz]. split; [eauto|].
      pose proof (ld_z _ _ _ _ _ _ _ _ C2) as (_ & _ & E1). pose proof (ld_z _ _ _ _ _ _ _ _ LD) as (_ & _ & E2). cbn [with_z nz] in E1. transitivity et; [exact E1|symmetry; exact E2].
  - destruct X as (k0 & -> & LD). pose proof (ld_stop _ _ _ _ _ _ _ _ LD) as He.
    destruct (constant_step n k0 p c (fun z k => leaf_done TM s e L bt et (with_z n z) k)) as (v & z' & k' & c' & C1 & C2).
    + rewrite He. exact H.
    + intros v. rewrite He. apply (leaf_next_pass TM s e L bt et (e_ip E) (level (e_data E) v) n k0 v S (level_times v) H LD).
    + do 2 eexists. split; [exact C1|]. cbn [xdone tz node with_z nz]. split; [eauto|].
      pose proof (ld_z _ _ _ _ _ _ _ _ C2) as (_ & _ & E1). pose proof (ld_z _ _ _ _ _ _ _ _ LD) as (_ & _ & E2). cbn [with_z nz] in E1. transitivity et; [exact E1|symmetry; exact E2].
  - destruct X as (XN & X). destruct (IH X) as (v & c' & C1 & C2 & _). cbn [compute_rob]. rewrite C1. cbn [bind].
    destruct (xdone_times _ _ _ _ _ _ S C2) as (T1 & _). destruct (xnode_old _ _ _ _ S XN) as [N F].
    rewrite abs_same by auto. cbn [bind]. destruct (front_ok _ _ _ (nz n) S (proj1 XN)) as (v' & Ev). rewrite Ev. cbn [bind].
    rewrite with_z_same. do 2 eexists. split; [reflexivity|]. cbn [xdone]. auto.
  - destruct X as (XN & X1 & X2). destruct (IHl X1) as (v & l' & C1 & C2 & _). destruct (IHr X2) as (v2 & r' & D1 & D2 & _).
    cbn [compute_rob]. rewrite C1, D1. cbn [bind]. destruct (BIN nadd n l' r' XN C2 D2) as (vz & B1 & B2).
    rewrite B1. cbn [bind]. rewrite B2. cbn [bind]. rewrite with_z_same. do 2 eexists. split; [reflexivity|]. cbn [xdone]. auto.
  - destruct X as (XN & X1 & X2). destruct (IHl X1) as (v & l' & C1 & C2 & _). destruct (IHr X2) as (v2 & r' & D1 & D2 & _).
    cbn [compute_rob]. rewrite C1, D1. cbn [bind]. destruct (BIN nsub n l' r' XN C2 D2) as (vz & B1 & B2).
    rewrite B1. cbn [bind]. rewrite B2. cbn [bind]. rewrite with_z_same. do 2 eexists. split; [reflexivity|]. cbn [xdone]. auto.
  - destruct X as (XN & X1 & X2). destruct (IHl X1) as (v & l' & C1 & C2 & _). destruct (IHr X2) as (v2 & r' & D1 & D2 & _).
    cbn [compute_rob]. rewrite C1, D1. cbn [bind]. destruct (BIN nmul n l' r' XN C2 D2) as (vz & B1 & B2).
    rewrite B1. cbn [bind]. rewrite B2. cbn [bind]. rewrite with_z_same. do 2 eexists. split; [reflexivity|]. cbn [xdone]. auto.
Qed.

(** ** Atoms *)
Hypothesis SP : e_sem E = SPACE.

Definition adone (n : nst Qc) (l r : tree Qc) : Prop :=
  (exists s e L bt et, 0 <= e /\ shaped L bt et /\ xdone s e L bt et l /\ xdone s e L bt et r /\
     Forall (fun a => a <= endTime (nz n)) L) /\
  headed (nz n) /\ endTime (nz n) = endTime (tz l) /\ Forall (fun q => time q <= endTime (nz n)) (samples (nz n)).

Lemma headed_front : forall z, headed z -> exists v, front_value z = Ok v.
Proof. intros z (p & l & Ep & _). unfold front_value. rewrite Ep. cbn [deref bind]. eauto. Qed.
Lemma headed_some : forall z, headed z -> samples z <> [].
Proof. intros z (p & l & Ep & _). rewrite Ep. discriminate. Qed.

Lemma atom_pass1 : forall s e l op r, 0 <= e -> xini s e l -> xini s e r ->
  exists v l' r' z, compute_rob E (TAtom (start s e) l op r) = Ok (v, TAtom (with_z (start s e) z) l' op r') /\
    adone (with_z (start s e) z) l' r'.
Proof.
  intros s e l op r H Xl Xr. pose proof (first_shaped s e H) as S.
  destruct (xpass1 s e l H Xl) as (v & l' & C1 & C2). destruct (xpass1 s e r H Xr) as (v2 & r' & D1 & D2).
  cbn [compute_rob]. rewrite C1, D1. cbn [bind start nz]. unfold compute_atom.
  destruct (xdone_times _ _ _ _ _ _ S C2) as (T1 & T2 & T3). destruct (xdone_times _ _ _ _ _ _ S D2) as (T4 & _).
  destruct (atom_built op (e_ip E) (samples (tz l')) (samples (tz r')) [] empty_signal built_empty) as (z & Ez & Bz).
  - cbn [app]. rewrite T1. apply S.
  - rewrite <- (map_length time (samples (tz l'))), <- (map_length time (samples (tz r'))). congruence.
  - cbn [app] in Bz. rewrite T1 in Bz. rewrite Ez, SP. cbn [bind samples].
    assert (HZ : headed z).
    { destruct Bz as [B1 B2]. destruct S as [(t & HL) _ _]. rewrite HL in B1. destruct (samples z) as [|p k] eqn:Es; [discriminate|].
      cbn [map] in B1. injection B1 as B1 _. exists p, k. split; [exact Es|]. destruct B2 as [B2 _]; [rewrite HL; discriminate|].
      rewrite B2, HL. exact B1. }
    assert (FL : Forall (fun a => a <= endTime (tz l')) (first_times TM s e)).
    { rewrite <- T1. rewrite Forall_map. exact T2. }
    pose proof HZ as (p & k & Es & Tp). rewrite Es. cbn [deref bind].
    exists (value p), l', r', (mkSig (samples z) (beginTime z) (endTime (tz l'))).
    split; [rewrite Es; reflexivity|]. split; [|split; [exact HZ|split; [reflexivity|]]].
    + exists s, e. do 3 eexists. split; [exact H|]. split; [exact S|]. split; [exact C2|]. split; [exact D2|]. exact FL.
    + cbn [with_z nz endTime samples]. apply (proj1 (Forall_map time (fun a => a <= endTime (tz l')) _)).
      destruct Bz as [B1 _]. rewrite B1. exact FL.
Qed.

Lemma atom_pass2 : forall n l op r, adone n l r ->
  exists v l' r', compute_rob E (TAtom n l op r) = Ok (v, TAtom n l' op r') /\ adone n l' r' /\ front_value (nz n) = Ok v.
Proof.
  intros n l op r ((s & e & L & bt & et & H & S & Xl & Xr & FL) & HZ & HE & HF).
  destruct (xpass2 s e L bt et l H S Xl) as (v & l' & C1 & C2 & C3). destruct (xpass2 s e L bt et r H S Xr) as (v2 & r' & D1 & D2 & D3).
  cbn [compute_rob]. rewrite C1, D1. cbn [bind]. unfold compute_atom.
  destruct (xdone_times _ _ _ _ _ _ S C2) as (T1 & T2 & T3).
  rewrite atom_same.
  2:{ apply headed_some; auto. }
  2:{ apply (proj1 (Forall_map time (fun a => a <= endTime (nz n)) _)). rewrite T1. exact FL. }
  rewrite SP. cbn [bind samples]. rewrite C3, <- HE.
  pose proof HZ as (p & k & Es & Tp). rewrite Es. cbn [deref bind]. rewrite <- Es.
  replace (mkSig (samples (nz n)) (beginTime (nz n)) (endTime (nz n))) with (nz n) by (destruct (nz n); reflexivity).
  rewrite with_z_same. exists (value p), l', r'. split; [reflexivity|].
  split; [|unfold front_value; rewrite Es; reflexivity].
  split; [|split; [exact HZ|split; [congruence|exact HF]]].
  exists s, e, L, bt, et. auto.
Qed.

(** ** Formulas *)
Definition side (up : bool) (t : tree Qc) : signal Qc := if up then tup t else tlow t.

(** Until nodes, whose safety is shown elsewhere: [uini] before the first pass, [uok]
    after it. *)
Section Nodes.
Variable uini : Qc -> Qc -> tree Qc -> Prop.
Variable uok : tree Qc -> Prop.
Hypothesis until_first : forall n l i r s e, uini s e (TUntil n l i r) ->
  exists v n' l' r', compute_rob E (TUntil n l i r) = Ok (v, TUntil n' l' i r') /\ headed (nz n') /\ uok (TUntil n' l' i r').
Hypothesis until_next : forall (up : bool) n l i r, uok (TUntil n l i r) ->
  exists v n' l' r', compute_bound E up (TUntil n l i r) = Ok (v, TUntil n' l' i r') /\
    headed (side up (TUntil n' l' i r')) /\ uok (TUntil n' l' i r').
Hypothesis until_trim : forall n l i r z, uok (TUntil n l i r) -> uok (TUntil (with_z n z) l i r).

Fixpoint ini (s e : Qc) (t : tree Qc) : Prop :=
  match t with
  | TAtom n l _ r => n = start s e /\ 0 <= e /\ xini s e l /\ xini s e r
  | TNot n c => n = start s e /\ ini s e c
  | TAnd n l r | TOr n l r | TImp n l r => n = start s e /\ ini s e l /\ ini s e r
  | TEv n i c | TAlw n i c =>
      n = start s e /\ 0 <= bound_value E (iend i) /\ ini (s + bound_value E (ibegin i)) (e + bound_value E (iend i)) c
  | TUntil n l i r => uini s e (TUntil n l i r)
  | _ => False
  end.

Definition free (u d : bool) (n : nst Qc) : Prop :=
  (u = true -> nup n = empty_signal) /\ (d = true -> nlow n = empty_signal).
(** Atoms are read and the upper ([u]) and lower ([d]) signals not yet computed. *)
Fixpoint rdy (u d : bool) (t : tree Qc) : Prop :=
  match t with
  | TAtom n l _ r => free u d n /\ adone n l r
  | TNot n c => free u d n /\ rdy d u c
  | TAnd n l r | TOr n l r => free u d n /\ rdy u d l /\ rdy u d r
  | TImp n l r => free u d n /\ rdy d u l /\ rdy u d r
  | TEv n _ c | TAlw n _ c => free u d n /\ rdy u d c
  | TUntil n l i r => uok (TUntil n l i r)
  | _ => False
  end.

Lemma free_with_z : forall u d n z, free u d n -> free u d (with_z n z).
Proof. intros u d n z F. exact F. Qed.
Lemma free_start : forall u d s e z, free u d (with_z (start s e) z).
Proof. intros. split; reflexivity. Qed.
Lemma headed_with_end : forall z e, headed z -> headed (with_end z e).
Proof. intros z e H. exact H. Qed.

(** The trimmed child of an eventually. *)
Lemma rdy_trim : forall c s v, rdy true true c -> headed (tz c) -> s <= endTime (tz c) ->
  exists z, resize (tz c) s (endTime (tz c)) v = Ok z /\ rdy true true (set_node c (with_z (node c) z)).
Proof.
  intros c s v R HZ H. destruct (resize_some_safe (tz c) s (endTime (tz c)) v (or_introl HZ) H) as (z & E1 & E2 & E3 & E4).
  exists z. split; [exact E1|]. destruct c; cbn [rdy set_node node] in *; try contradiction; try (destruct R as [R1 R2]; split; [exact R1|exact R2]); try (apply until_trim; exact R).
  destruct R as [R1 ((s0 & e0 & L & bt & et & X1 & X2 & X3 & X4 & X5) & R3 & R4 & R5)]. split; [exact R1|].
  cbn [tz node] in *.
  destruct (resize_some (nz n) s (endTime (nz n)) v) as (z' & F1 & F2 & F3 & F4 & F5).
  - apply headed_some; auto.
  - exact H.
  - reflexivity.
  - apply removelast_forall; auto.
  - assert (z' = z). { change (tz (TAtom n c1 op c2)) with (nz n) in E1. rewrite F1 in E1. congruence. } subst z'.
    split; [|split; [exact E2|split; [|]]]; cbn [with_z nz].
    + exists s0, e0, L, bt, et. rewrite F2. auto.
    + rewrite F2. exact R4.
    + rewrite F2. exact F5.
Qed.

Lemma back_by_le : forall a t, back_by a t <= t.
Proof. intros a t. unfold back_by. destruct (Qclt_le_dec 0 a); qlra. Qed.

Lemma rob_safe : forall t s e, ini s e t -> exists v t', compute_rob E t = Ok (v, t') /\ headed (tz t') /\ rdy true true t'.
Proof.
  induction t as [n k var c|n k p c|n c IH|n l IHl r IHr|n l IHl r IHr|n l IHl r IHr|n l IHl op r IHr|n c IH|n l IHl r IHr|n l IHl r IHr|n l IHl r IHr|n i c IH|n i c IH|n l IHl i r IHr]; cbn [ini]; intros s e X; try contradiction.
  - destruct X as (-> & H & X1 & X2). destruct (atom_pass1 s e l op r H X1 X2) as (v & l' & r' & z & C1 & C2).
    do 2 eexists. split; [exact C1|]. cbn [rdy]. split; [apply C2|]. split; [apply free_start|exact C2].
  - destruct X as (-> & X). destruct (IH s e X) as (v & c' & C1 & C2 & C3). cbn [compute_rob]. rewrite C1. cbn [bind].
    destruct (headed_front _ (headed_cnot _ C2)) as (v' & Ev). rewrite Ev. cbn [bind]. do 2 eexists. split; [reflexivity|].
    split; [apply (headed_cnot _ C2)|]. cbn [rdy]. split; [apply free_start|exact C3].
  - destruct X as (-> & X1 & X2). destruct (IHl s e X1) as (v & l' & C1 & C2 & C3). destruct (IHr s e X2) as (v2 & r' & D1 & D2 & D3).
    cbn [compute_rob]. rewrite C1, D1. cbn [bind].
    destruct (compute_and_safe (with_end (tz l') (smax (endTime (tz l')) (endTime (tz r')))) (with_end (tz r') (smax (endTime (tz l')) (endTime (tz r')))) C2 D2) as (z & Z1 & Z2 & _).
    rewrite Z1. cbn [bind]. destruct (headed_front _ Z2) as (v' & Ev). rewrite Ev. cbn [bind]. do 2 eexists. split; [reflexivity|].
    split; [exact Z2|]. cbn [rdy]. split; [apply free_start|auto].
  - destruct X as (-> & X1 & X2). destruct (IHl s e X1) as (v & l' & C1 & C2 & C3). destruct (IHr s e X2) as (v2 & r' & D1 & D2 & D3).
    cbn [compute_rob]. rewrite C1, D1. cbn [bind].
    destruct (compute_or_safe (with_end (tz l') (smax (endTime (tz l')) (endTime (tz r')))) (with_end (tz r') (smax (endTime (tz l')) (endTime (tz r')))) C2 D2) as (z & Z1 & Z2 & _).
    rewrite Z1. cbn [bind]. destruct (headed_front _ Z2) as (v' & Ev). rewrite Ev. cbn [bind]. do 2 eexists. split; [reflexivity|].
    split; [exact Z2|]. cbn [rdy]. split; [apply free_start|auto].
  - destruct X as (-> & X1 & X2). destruct (IHl s e X1) as (v & l' & C1 & C2 & C3). destruct (IHr s e X2) as (v2 & r' & D1 & D2 & D3).
    cbn [compute_rob]. rewrite C1, D1. cbn [bind]. unfold compute_implies.
    destruct (compute_or_safe (cnot (tz l')) (tz r') (headed_cnot _ C2) D2) as (z & Z1 & Z2 & _).
    rewrite Z1. cbn [bind]. destruct (headed_front _ Z2) as (v' & Ev). rewrite Ev. cbn [bind]. do 2 eexists. split; [reflexivity|].
    split; [exact Z2|]. cbn [rdy]. split; [apply free_start|auto].
  - destruct X as (-> & H & X). destruct (IH _ _ X) as (v & c' & C1 & C2 & C3). cbn [compute_rob]. rewrite C1. cbn [bind start nz].
    destruct (timed_ev_safe (e_M E) empty_signal (tz c') (bound_value E (ibegin i)) (bound_value E (iend i)) C2) as (z & Z1 & Z2 & Z3 & Z4).
    rewrite Z1. cbn [bind]. change (end_time (start s e)) with e; change (start_time (start s e)) with s.
    destruct (rdy_trim c' (smin (endTime z) e - bound_value E (iend i)) n0 C3 C2) as (zc & W1 & W2).
    { rewrite Z4. pose proof (back_by_le (bound_value E (ibegin i)) (endTime (tz c'))) as BB. unfold smin. qcase; qlra. }
    change (smin (endTime z) e - bound_value E (iend i)) with (nsub (smin (endTime z) e) (bound_value E (iend i))) in W1. rewrite W1. cbn [bind].
    destruct (resize_some_safe z s (smax s (smin (endTime z) e)) n0 (or_introl Z2)) as (z' & Y1 & Y2 & _).
    { unfold smax. qcase; qlra. }
    rewrite Y1. cbn [bind]. destruct (headed_front _ Y2) as (v' & Ev). rewrite Ev. cbn [bind]. do 2 eexists. split; [reflexivity|].
    split; [exact Y2|]. cbn [rdy]. split; [apply (free_start _ _ s e)|exact W2].
  - destruct X as (-> & H & X). destruct (IH _ _ X) as (v & c' & C1 & C2 & C3). cbn [compute_rob]. rewrite C1. cbn [bind start nz].
    destruct (timed_alw_safe (e_M E) empty_signal (tz c') (bound_value E (ibegin i)) (bound_value E (iend i)) C2) as (z & Z1 & Z2 & Z3 & Z4).
    rewrite Z1. cbn [bind]. change (end_time (start s e)) with e; change (start_time (start s e)) with s.
    destruct (resize_some_safe z s (smax s (smin (endTime z) e)) n0 (or_introl Z2)) as (z' & Y1 & Y2 & _).
    { unfold smax. qcase; qlra. }
    rewrite Y1. cbn [bind]. destruct (headed_front _ Y2) as (v' & Ev). rewrite Ev. cbn [bind]. do 2 eexists. split; [reflexivity|].
    split; [exact Y2|]. cbn [rdy]. split; [apply (free_start _ _ s e)|exact C3].
  - destruct (until_first n l i r s e X) as (v & n' & l' & r' & C1 & C2 & C3). do 2 eexists. split; [exact C1|]. auto.
Qed.

(** ** Bounds *)
Lemma append_empty : forall ip (t v : Qc), exists z, appendSample ip empty_signal t v = Ok z /\ headed z.
Proof.
  intros ip t v. unfold appendSample, appendSample3. cbn [empty_signal samples beginTime endTime]. rewrite andb_false_r.
  destruct ip; (eexists; split; [reflexivity|]; do 2 eexists; split; reflexivity).
Qed.

Lemma fill_safe : forall ip x s t v d, headed x -> exists z z', resize x s t v = Ok z /\ fill_empty ip z s d = Ok z' /\ headed z'.
Proof.
  intros ip x s t v d H. destruct (resize_safe x s t v (or_introl H)) as (z & E1 & [[_ ->]|(E2 & _)]).
  - destruct (append_empty ip s d) as (z' & A1 & A2). exists empty_signal, z'. auto.
  - exists z, z. split; [exact E1|]. split; [|exact E2]. unfold fill_empty, is_empty.
    destruct (samples z) eqn:Es; [exfalso; apply (headed_some _ E2); auto|reflexivity].
Qed.

Lemma free_put : forall (up : bool) u d n z, free u d n ->
  free (if up then false else u) (if up then d else false) (if up then with_up n z else with_low n z).
Proof. intros [] u d n z [F1 F2]; split; cbn [with_up with_low nup nlow]; auto; discriminate. Qed.
Lemma free_side : forall (up u d : bool) (n : nst Qc), free u d n -> (if up then u else d) = true -> (if up then nup n else nlow n) = empty_signal.
Proof. intros [] u d n [F1 F2] H; auto. Qed.

Lemma bound_safe : forall t (up : bool) u d, (if up then u else d) = true -> rdy u d t ->
  exists v t', compute_bound E up t = Ok (v, t') /\ headed (side up t') /\
    rdy (if up then false else u) (if up then d else false) t'.
Proof.
  induction t as [n k var c|n k p c|n c IH|n l IHl r IHr|n l IHl r IHr|n l IHl r IHr|n l IHl op r IHr|n c IH|n l IHl r IHr|n l IHl r IHr|n l IHl r IHr|n i c IH|n i c IH|n l IHl i r IHr]; cbn [rdy]; intros up u d Hs X; try contradiction.
  - destruct X as [F A]. destruct (atom_pass2 n l op r A) as (v & l' & r' & C1 & C2 & _).
    change (compute_bound E up (TAtom n l op r)) with (r <- compute_rob E (TAtom n l op r) ;; default_bound E up r).
    rewrite C1. cbn [bind]. unfold default_bound. cbn [snd node]. rewrite (free_side up u d n F Hs).
    pose proof A as (_ & HZ & _).
    assert (FIN : forall x, headed x -> exists v' t', (v <- front_value x;; Ok (v, set_node (TAtom n l' op r') (if up then with_up n x else with_low n x))) = Ok (v', t') /\
      headed (side up t') /\ rdy (if up then false else u) (if up then d else false) t').
    { intros x Hx. destruct (headed_front _ Hx) as (v' & Ev). rewrite Ev. cbn [bind set_node]. do 2 eexists. split; [reflexivity|].
      split; [destruct up; exact Hx|]. cbn [rdy]. split; [apply free_put; exact F|]. destruct up; exact C2. }
    destruct (nltb (endTime (nz n)) (start_time n)).
    + destruct (append_empty (e_ip E) (start_time n) (BOTTOM (e_M E))) as (x & A1 & A2). rewrite A1. cbn [bind]. apply FIN; auto.
    + apply FIN; auto.
  - destruct X as [F X]. destruct (IH (negb up) d u) as (v & c' & C1 & C2 & C3); [destruct up; auto|auto|].
    cbn [compute_bound]. rewrite C1. cbn [bind].
    assert (SE : (if up then tlow c' else tup c') = side (negb up) c') by (destruct up; reflexivity). rewrite SE.
    unfold is_empty. destruct (samples (side (negb up) c')) eqn:Es; [exfalso; apply (headed_some _ C2); auto|]. clear Es.
    destruct (headed_front _ (headed_cnot _ C2)) as (v' & Ev). rewrite Ev. cbn [bind]. do 2 eexists. split; [reflexivity|].
    split; [destruct up; exact (headed_cnot _ C2)|]. cbn [rdy]. split; [apply free_put; exact F|]. destruct up; exact C3.
  - destruct X as (F & X1 & X2). destruct (IHl up u d Hs X1) as (v & l' & C1 & C2 & C3). destruct (IHr up u d Hs X2) as (v2 & r' & D1 & D2 & D3).
    cbn [compute_bound]. rewrite C1, D1. cbn [bind]. fold (side up l') (side up r').
    destruct (compute_and_safe _ _ C2 D2) as (z & Z1 & Z2 & _). rewrite Z1. cbn [bind].
    match goal with |- context [resize z (start_time n) ?t ?dd] => destruct (fill_safe (e_ip E) z (start_time n) t dd dd Z2) as (z1 & z2 & Y1 & Y2 & Y3) end.
    rewrite Y1. cbn [bind]. rewrite Y2. cbn [bind]. destruct (headed_front _ Y3) as (v' & Ev). rewrite Ev. cbn [bind]. do 2 eexists. split; [reflexivity|].
    split; [destruct up; exact Y3|]. cbn [rdy]. split; [apply free_put; exact F|auto].
  - destruct X as (F & X1 & X2). destruct (IHl up u d Hs X1) as (v & l' & C1 & C2 & C3). destruct (IHr up u d Hs X2) as (v2 & r' & D1 & D2 & D3).
    cbn [compute_bound]. rewrite C1, D1. cbn [bind]. fold (side up l') (side up r').
    destruct (compute_or_safe _ _ C2 D2) as (z & Z1 & Z2 & _). rewrite Z1. cbn [bind].
    match goal with |- context [resize z (start_time n) ?t ?dd] => destruct (fill_safe (e_ip E) z (start_time n) t dd dd Z2) as (z1 & z2 & Y1 & Y2 & Y3) end.
    rewrite Y1. cbn [bind]. rewrite Y2. cbn [bind]. destruct (headed_front _ Y3) as (v' & Ev). rewrite Ev. cbn [bind]. do 2 eexists. split; [reflexivity|].
    split; [destruct up; exact Y3|]. cbn [rdy]. split; [apply free_put; exact F|auto].
  - destruct X as (F & X1 & X2). destruct (IHl (negb up) d u) as (v & l' & C1 & C2 & C3); [destruct up; auto|auto|].
    destruct (IHr up u d Hs X2) as (v2 & r' & D1 & D2 & D3).
    cbn [compute_bound]. rewrite C1, D1. cbn [bind]. fold (side up r').
    assert (SE : (if up then tlow l' else tup l') = side (negb up) l') by (destruct up; reflexivity). rewrite SE.
    destruct (compute_or_safe _ _ (headed_cnot _ C2) D2) as (z & Z1 & Z2 & _). rewrite Z1. cbn [bind].
    match goal with |- context [resize z (start_time n) ?t ?dd] => destruct (fill_safe (e_ip E) z (start_time n) t dd dd Z2) as (z1 & z2 & Y1 & Y2 & Y3) end.
    rewrite Y1. cbn [bind]. rewrite Y2. cbn [bind]. destruct (headed_front _ Y3) as (v' & Ev). rewrite Ev. cbn [bind]. do 2 eexists. split; [reflexivity|].
    split; [destruct up; exact Y3|]. cbn [rdy]. split; [apply free_put; exact F|]. split; [destruct up; exact C3|exact D3].
  - destruct X as [F X]. destruct (IH up u d Hs X) as (v & c' & C1 & C2 & C3). cbn [compute_bound]. rewrite C1. cbn [bind]. fold (side up c').
    rewrite (free_side up u d n F Hs). destruct (nltb (endTime (side up c')) (bound_value E (ibegin i))).
    + destruct (append_empty (e_ip E) (start_time n) (if up then TOP (e_M E) else BOTTOM (e_M E))) as (x & A1 & A2). rewrite A1. cbn [bind].
      do 2 eexists. split; [reflexivity|]. split; [destruct up; exact A2|]. cbn [rdy]. split; [apply free_put; exact F|exact C3].
    + destruct (timed_ev_safe (e_M E) empty_signal (side up c') (bound_value E (ibegin i)) (bound_value E (iend i)) C2) as (z & Z1 & Z2 & _).
      rewrite Z1. cbn [bind].
      assert (Y : exists z1 z2, (if up
         then resize z (start_time n) (smin (nadd (nsub (endTime z) (bound_value E (iend i))) (bound_value E (ibegin i))) (end_time n)) n0
         else resize z (start_time n) (smax (start_time n) (smin (endTime z) (end_time n))) n0) = Ok z1 /\
         fill_empty (e_ip E) z1 (start_time n) (if up then TOP (e_M E) else BOTTOM (e_M E)) = Ok z2 /\ headed z2).
      { destruct up; apply fill_safe; auto. }
      destruct Y as (z1 & z2 & Y1 & Y2 & Y3). cbv zeta. rewrite Y1. cbn [bind]. rewrite Y2. cbn [bind].
      destruct (headed_front _ Y3) as (v' & Ev). rewrite Ev. cbn [bind]. do 2 eexists. split; [reflexivity|].
      split; [destruct up; exact Y3|]. cbn [rdy]. split; [apply free_put; exact F|exact C3].
  - destruct X as [F X]. destruct (IH up u d Hs X) as (v & c' & C1 & C2 & C3). cbn [compute_bound]. rewrite C1. cbn [bind]. fold (side up c').
    rewrite (free_side up u d n F Hs). destruct (nltb (endTime (side up c')) (bound_value E (ibegin i))).
    + destruct (append_empty (e_ip E) (start_time n) (if up then TOP (e_M E) else BOTTOM (e_M E))) as (x & A1 & A2). rewrite A1. cbn [bind].
      do 2 eexists. split; [reflexivity|]. split; [destruct up; exact A2|]. cbn [rdy]. split; [apply free_put; exact F|exact C3].
    + destruct (timed_alw_safe (e_M E) empty_signal (side up c') (bound_value E (ibegin i)) (bound_value E (iend i)) C2) as (z & Z1 & Z2 & _).
      rewrite Z1. cbn [bind].
      assert (Y : exists z1 z2, (if up
         then resize z (start_time n) (smax (start_time n) (smin (endTime z) (end_time n))) n0
         else resize z (start_time n) (smin (nadd (nsub (endTime z) (bound_value E (iend i))) (bound_value E (ibegin i))) (end_time n)) n0) = Ok z1 /\
         fill_empty (e_ip E) z1 (start_time n) (if up then TOP (e_M E) else BOTTOM (e_M E)) = Ok z2 /\ headed z2).
      { destruct up; apply fill_safe; auto. }
      destruct Y as (z1 & z2 & Y1 & Y2 & Y3). cbv zeta. rewrite Y1. cbn [bind]. rewrite Y2. cbn [bind].
      destruct (headed_front _ Y3) as (v' & Ev). rewrite Ev. cbn [bind]. do 2 eexists. split; [reflexivity|].
      split; [destruct up; exact Y3|]. cbn [rdy]. split; [apply free_put; exact F|exact C3].
  - destruct (until_next up n l i r X) as (v & n' & l' & r' & C1 & C2 & C3). do 2 eexists. split; [exact C1|]. auto.
Qed.

(** ** The object of a formula *)
Lemma xini_build : forall f s e, expression w f -> xini s e (prepare E (build f) s e).
Proof.
  induction f; intros s e X; cbn [expression] in X; try contradiction;
    unfold prepare; cbn [build set_trace set_params reset set_horizon xini]; (split; [reflexivity|]);
    try (split; [apply IHf1|apply IHf2]; tauto); try (apply IHf; exact X); auto.
Qed.

Lemma ini_build : forall f s e, 0 <= e -> no_until (bound_value E) w f -> ini s e (prepare E (build f) s e).
Proof.
  induction f; intros s e H X; cbn [no_until] in X; try contradiction;
    unfold prepare; cbn [build set_trace set_params reset set_horizon ini]; (split; [reflexivity|]).
  - split; [exact H|]. destruct X. split; apply xini_build; auto.
  - apply IHf; auto.
  - destruct X. split; [apply IHf1|apply IHf2]; auto.
  - destruct X. split; [apply IHf1|apply IHf2]; auto.
  - destruct X. split; [apply IHf1|apply IHf2]; auto.
  - destruct X as [X1 X2]. split; [exact X1|]. apply IHf; auto. unfold nadd. cbn [NumQc]. qlra.
  - destruct X as [X1 X2]. split; [exact X1|]. apply IHf; auto. unfold nadd. cbn [NumQc]. qlra.
Qed.

Lemma evaluation_done : forall t s e, ini s e (prepare E t s e) -> exists r lo up, numbers (evaluate E t s e) = Ok (r, lo, up).
Proof.
  intros t s e X. unfold evaluate.
  destruct (rob_safe _ s e X) as (v & t1 & C1 & C2 & C3). rewrite C1. cbn [bind].
  destruct (bound_safe t1 false true true eq_refl C3) as (v2 & t2 & D1 & D2 & D3). rewrite D1. cbn [bind].
  destruct (bound_safe t2 true true false eq_refl D3) as (v3 & t3 & G1 & G2 & G3). rewrite G1. cbn [bind numbers]. eauto.
Qed.
End Nodes.

Theorem evaluation_safe : forall f t s e, skel t = skel (build f) -> no_until (bound_value E) w f -> 0 <= e ->
  exists r lo up, numbers (evaluate E t s e) = Ok (r, lo, up).
Proof.
  intros f t s e Sk X H. rewrite (evaluate_skel E t (build f) s e Sk).
  apply (evaluation_done (fun _ _ _ => False) (fun _ => False)); try contradiction. apply ini_build; auto.
Qed.
End Tree.
