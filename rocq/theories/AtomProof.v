(** Atoms over signals and constants, under linear interpolation and space robustness. *)
From Coq Require Import List QArith Qcanon Bool String Lia.
From Verif Require Import Num Base Signal QcTac Spec Robust Repr SimplifyProof Lip Closed SigProof ResizeProof Transducer StlSpec TreeProof TimedProof ReadProof.
Import ListNotations.
Local Open Scope Qc_scope.

(** Increasing lists with the same times in them have the same list of times. *)
Fixpoint incr (l : list Qc) : Prop :=
  match l with nil => True | a :: l' => Forall (fun b => a < b) l' /\ incr l' end.

Lemma increasing_incr : forall l : list (sample Qc), increasing l -> incr (map time l).
Proof.
  induction l as [|p l IH]; intros H; cbn [map incr]; auto. destruct H as [H1 H2]. split; auto.
  rewrite Forall_map. exact H1.
Qed.

Lemma incr_unique : forall l l', incr l -> incr l' -> (forall a, In a l <-> In a l') -> l = l'.
Proof.
  induction l as [|a l IH]; intros [|b l'] H H' S; auto.
  - destruct (S b) as [_ X]. destruct X. left. reflexivity.
  - destruct (S a) as [X _]. destruct X. left. reflexivity.
  - destruct H as [H1 H2]. destruct H' as [H3 H4].
    rewrite Forall_forall in H1, H3.
    assert (AB : a = b).
    { destruct (S a) as [X _]. destruct (X (or_introl eq_refl)) as [Y|Y]; auto.
      destruct (S b) as [_ X2]. destruct (X2 (or_introl eq_refl)) as [Y2|Y2]; auto.
      specialize (H1 _ Y2). specialize (H3 _ Y). qlra. }
    subst b. f_equal. apply IH; auto. intros c. split; intros I.
    + destruct (S c) as [X _]. destruct (X (or_intror I)) as [->|Y]; auto. specialize (H1 _ I). qlra.
    + destruct (S c) as [_ X]. destruct (X (or_intror I)) as [->|Y]; auto. specialize (H3 _ I). qlra.
Qed.

Lemma leaf_times : forall pts pts' s e z z', leaf_sig pts s e z -> leaf_sig pts' s e z' ->
  map fst pts = map fst pts' -> map time (samples z) = map time (samples z').
Proof.
  assert (X : forall pts pts' s e z z', leaf_sig pts s e z -> leaf_sig pts' s e z' -> map fst pts = map fst pts' ->
    forall a, In a (map time (samples z)) -> In a (map time (samples z'))).
  { intros pts pts' s e z z' [A1 A2 A3 A4 A5 A6] [B1 B2 B3 B4 B5 B6] P a I. apply in_map_iff in I.
    destruct I as (q & <- & I). destruct (A5 q I) as [Y|Y].
    - destruct (crepQ_front _ _ B3) as (p & l & C1 & C2 & _). rewrite C1. left. congruence.
    - rewrite P in Y. apply B6; auto.
      + destruct A3 as [_ A3]. apply prepQ_times in A3. rewrite Forall_forall in A3. rewrite <- A1. apply A3. exact I.
      + destruct A3 as [_ A3]. apply prepQ_le_end in A3. rewrite Forall_forall in A3. rewrite <- A2. apply A3. exact I. }
  intros pts pts' s e z z' H H' P. apply incr_unique.
  - apply increasing_incr. apply H.
  - apply increasing_incr. apply H'.
  - intros a. split; eapply X; eauto.
Qed.

(** ** The loop over samples *)
Definition atom_op (op : comparator) (a b : Qc) : Qc :=
  match op with GREATERTHAN => a - b | LESSTHAN => b - a end.
Definition diff (op : comparator) (p q : sample Qc) : sample Qc :=
  mkS (time p) (atom_op op (value p) (value q)) (atom_op op (deriv p) (deriv q)).
Fixpoint zipd (op : comparator) (l r : list (sample Qc)) : list (sample Qc) :=
  match l, r with
  | p :: l', q :: r' => diff op p q :: zipd op l' r'
  | _, _ => nil
  end.

Lemma set_back_snoc : forall (l : list (sample Qc)) p d, set_back_deriv (l ++ [p]) d = l ++ [mkS (time p) (value p) d].
Proof.
  induction l as [|q l IH]; intros p d; [reflexivity|].
  destruct l as [|q' l]; [reflexivity|]. cbn [app] in *.
  change (set_back_deriv (q :: q' :: l ++ [p]) d) with (q :: set_back_deriv (q' :: l ++ [p]) d). rewrite IH. reflexivity.
Qed.

Lemma append_diff : forall op acc bt p q p' q', time p < time p' -> time p = time q -> time p' = time q' ->
  line p (time p') = value p' -> line q (time q') = value q' ->
  (match op with
   | LESSTHAN => appendSample3 LINEAR (mkSig (acc ++ [diff op p q]) bt (time p)) (time p') (nsub (value q') (value p')) (nsub (deriv q') (deriv p'))
   | GREATERTHAN => appendSample3 LINEAR (mkSig (acc ++ [diff op p q]) bt (time p)) (time p') (nsub (value p') (value q')) (nsub (deriv p') (deriv q'))
   end) = Ok (mkSig ((acc ++ [diff op p q]) ++ [diff op p' q']) bt (time p')).
Proof.
  intros op acc bt p q p' q' D T1 T2 L1 L2.
  assert (G : appendSample3 LINEAR (mkSig (acc ++ [diff op p q]) bt (time p)) (time p') (atom_op op (value p') (value q')) (atom_op op (deriv p') (deriv q'))
    = Ok (mkSig ((acc ++ [diff op p q]) ++ [diff op p' q']) bt (time p'))).
  { unfold appendSample3. cbn [endTime samples beginTime].
    assert (B : nleb (time p') (time p) = false) by (apply nleb_false; auto). rewrite B. cbn [andb].
    assert (DD : (atom_op op (value p') (value q') - atom_op op (value p) (value q)) / (time p' - time p) = atom_op op (deriv p) (deriv q)).
    { rewrite <- L1, <- L2. unfold line. rewrite <- T1, <- T2.
      destruct op; cbn [atom_op]; field; intro C; qlra. }
    assert (BK : back (acc ++ [diff op p q]) = Ok (diff op p q)) by apply back_app.
    assert (SB : set_back_deriv (acc ++ [diff op p q]) (atom_op op (deriv p) (deriv q)) = acc ++ [diff op p q]) by apply set_back_snoc.
    destruct (acc ++ [diff op p q]) as [|x y] eqn:X; [destruct acc; discriminate|].
    rewrite BK. cbn [bind]. rewrite ndiv_some.
    2:{ intro C. cbn [diff time] in C. change (time p' - time p = 0) in C. qlra. }
    cbn [of_div bind diff time value]. change nsub with Qcminus. rewrite DD, SB. reflexivity. }
  destruct op; exact G.
Qed.

Lemma zipd_nil_r : forall op l, zipd op l [] = [].
Proof. destruct l; reflexivity. Qed.

Lemma atom_loop_acc : forall op l r p q acc bt, increasing (p :: l) -> map time (p :: l) = map time (q :: r) ->
  continuous (p :: l) -> continuous (q :: r) ->
  atom_loop op LINEAR (mkSig (acc ++ [diff op p q]) bt (time p)) l r =
  Ok (mkSig (acc ++ zipd op (p :: l) (q :: r)) bt (last (map time (p :: l)) 0)).
Proof.
  induction l as [|p' l IH]; intros [|q' r] p q acc bt I T C1 C2; try discriminate; [reflexivity|].
  cbn [map] in T. injection T as T1 T2 T3. destruct I as [I1 I2]. inversion I1 as [|? ? I3 I4]; subst.
  destruct C1 as [C1 C1']. destruct C2 as [C2 C2'].
  cbn [atom_loop]. rewrite append_diff by auto. cbn [bind].
  rewrite (IH r p' q' (acc ++ [diff op p q]) bt I2).
  - rewrite <- app_assoc. reflexivity.
  - cbn [map]. congruence.
  - exact C1'.
  - exact C2'.
Qed.

Lemma atom_loop_first : forall op l r p q, increasing (p :: l) -> map time (p :: l) = map time (q :: r) ->
  continuous (p :: l) -> continuous (q :: r) ->
  atom_loop op LINEAR empty_signal (p :: l) (q :: r) =
  Ok (mkSig (zipd op (p :: l) (q :: r)) (time p) (last (map time (p :: l)) 0)).
Proof.
  intros op l r p q I T C1 C2. cbn [atom_loop].
  assert (F : (match op with
   | LESSTHAN => appendSample3 LINEAR empty_signal (time p) (nsub (value q) (value p)) (nsub (deriv q) (deriv p))
   | GREATERTHAN => appendSample3 LINEAR empty_signal (time p) (nsub (value p) (value q)) (nsub (deriv p) (deriv q))
   end) = Ok (mkSig ([] ++ [diff op p q]) (time p) (time p))).
  { destruct op; unfold appendSample3; cbn [samples empty_signal]; rewrite Bool.andb_false_r; reflexivity. }
  rewrite F. cbn [bind]. exact (atom_loop_acc op l r p q [] (time p) I T C1 C2).
Qed.

Lemma atom_loop_noop : forall op l r z, samples z <> [] -> Forall (fun q => time q <= endTime z) l ->
  atom_loop op LINEAR z l r = Ok z.
Proof.
  induction l as [|p l IH]; intros [|q r] z N F; try reflexivity.
  inversion F as [|? ? F1 F2]; subst. cbn [atom_loop]. apply nleb_true in F1.
  assert (X : forall v d, appendSample3 LINEAR z (time p) v d = Ok z).
  { intros v d. unfold appendSample3. rewrite F1. destruct (samples z); [congruence|reflexivity]. }
  destruct op; rewrite X; cbn [bind]; apply IH; auto.
Qed.

Lemma line_diff : forall op p q u, time p = time q -> line (diff op p q) u = atom_op op (line p u) (line q u).
Proof. intros op p q u T. unfold line. cbn [diff time value deriv]. rewrite <- T. destruct op; cbn [atom_op]; ring. Qed.

Lemma zipd_rep : forall op f g e l r t, prepQ true (fun u v => f u = v) e l t -> prepQ true (fun u v => g u = v) e r t ->
  map time l = map time r -> prepQ true (fun u v => atom_op op (f u) (g u) = v) e (zipd op l r) t.
Proof.
  intros op f g e. induction l as [|p l IH]; intros [|q r] t P Q T; try discriminate.
  - inversion P; subst. cbn [zipd]. constructor.
  - cbn [map] in T. injection T as T1 T2.
    inversion P as [|? ? ? t1 P1 P2 P3 P4]; subst. inversion Q as [|? ? ? t2 Q1 Q2 Q3 Q4]; subst.
    assert (E12 : t1 = t2).
    { destruct l as [|p' l]; destruct r as [|q' r]; try discriminate.
      - inversion P4; subst. inversion Q4; subst. reflexivity.
      - apply prepQ_front in P4. apply prepQ_front in Q4. cbn [map] in T2. injection T2 as T3 T4. congruence. }
    subst t2. cbn [zipd]. eapply prep_cons with (t' := t1); [reflexivity|exact P2| |apply IH; auto].
    intros u U1 U2. rewrite line_diff by auto. rewrite <- P3, <- Q3; auto.
Qed.

Lemma zipd_times : forall op l r, map time l = map time r -> map time (zipd op l r) = map time l.
Proof.
  induction l as [|p l IH]; intros [|q r] T; try discriminate; auto.
  cbn [map] in T. injection T as T1 T2. cbn [zipd map]. rewrite IH by auto. reflexivity.
Qed.

(** ** Atom objects *)
Section Atom.
Variable E : env Qc.
Variable w : nat.
Hypothesis LIN : e_ip E = LINEAR.
Hypothesis SPC : e_sem E = SPACE.
Hypothesis TR : trace w (e_data E).

(** The last time of the data. *)
Let T := last_time (e_data E).

Definition atom_fun (l : fml Qc) (op : comparator) (r : fml Qc) (u : Qc) : Qc :=
  atom_op op (interp (leaf_points E l) u) (interp (leaf_points E r) u).

(** The signal of an atom: the difference of its operands on [[s, e]]; it has a
    sample at [s] and at each time of the data. *)
Record atom_sig (l : fml Qc) (op : comparator) (r : fml Qc) (s e : Qc) (z : signal Qc) : Prop := {
  at_begin : beginTime z = s;
  at_end : endTime z = e;
  at_rep : crepQ (fun u v => atom_fun l op r u = v) z;
  at_all : forall t, In t (map row_time (e_data E)) -> s <= t -> t <= e -> In t (map time (samples z))
}.

Lemma leaf_node : forall f t n k, leaf_tree E f t n k -> node t = n.
Proof.
  intros f t n k H. destruct f; cbn [leaf_tree] in H; try contradiction.
  - subst t. reflexivity.
  - destruct H as (v' & -> & _). reflexivity.
Qed.

Lemma simple_atom : forall l op r n tl tr nl nr s e, simple_operand w l -> simple_operand w r ->
  leaf_tree E l tl nl 0 -> leaf_tree E r tr nr 0 ->
  nz n = empty_signal -> nz nl = empty_signal -> nz nr = empty_signal ->
  start_time n = s -> end_time n = e -> start_time nl = s -> end_time nl = e -> start_time nr = s -> end_time nr = e ->
  0 <= e -> s <= e -> s <= T ->
  exists v n' tl' tr', compute_rob E (TAtom n tl op tr) = Ok (v, TAtom n' tl' op tr') /\
    atom_sig l op r s (qmin e T) (nz n') /\ v = atom_fun l op r s.
Proof.
  intros l op r n tl tr nl nr s e Sl Sr Ll Lr Zn Zl Zr Hs He Hsl Hel Hsr Her H0 H1 H2.
  destruct (leaf_pass1 E w LIN TR l tl nl s e) as (vl & tl' & nl' & kl & A1 & A2 & A3 & A4); auto.
  destruct (leaf_pass1 E w LIN TR r tr nr s e) as (vr & tr' & nr' & kr & B1 & B2 & B3 & B4); auto.
  fold T in A3, B3.
  cbn [compute_rob]. rewrite A1. cbn [bind]. rewrite B1. cbn [bind].
  unfold tz. rewrite (leaf_node _ _ _ _ A2), (leaf_node _ _ _ _ B2).
  assert (TM : map time (samples (nz nl')) = map time (samples (nz nr'))).
  { eapply leaf_times; [exact A3|exact B3|]. rewrite (times_points E w l Sl), (times_points E w r Sr). reflexivity. }
  pose proof (ls_inc _ _ _ _ A3) as I.
  pose proof (crep_cont _ _ (ls_rep _ _ _ _ A3)) as Cl. pose proof (crep_cont _ _ (ls_rep _ _ _ _ B3)) as Cr.
  destruct (crepQ_front _ _ (ls_rep _ _ _ _ A3)) as (p & sl & F1 & F2 & F3).
  destruct (crepQ_front _ _ (ls_rep _ _ _ _ B3)) as (q & sr & G1 & G2 & G3).
  unfold compute_atom. rewrite Zn, LIN, SPC.
  pose proof (atom_loop_first op sl sr p q) as AL. rewrite <- F1, <- G1 in AL. rewrite AL by auto. cbn [bind].
  cbn [samples beginTime].
  assert (ZR : prepQ true (fun u v => atom_fun l op r u = v) (endTime (nz nl')) (zipd op (samples (nz nl')) (samples (nz nr'))) s).
  { unfold atom_fun. apply (zipd_rep op (interp (leaf_points E l)) (interp (leaf_points E r))); auto.
    - destruct (ls_rep _ _ _ _ A3) as [_ X]. rewrite (ls_begin _ _ _ _ A3) in X. exact X.
    - destruct (ls_rep _ _ _ _ B3) as [_ X]. rewrite (ls_begin _ _ _ _ B3), (ls_end _ _ _ _ B3) in X.
      rewrite (ls_end _ _ _ _ A3). exact X. }
  assert (NE : zipd op (samples (nz nl')) (samples (nz nr')) = diff op p q :: zipd op sl sr) by (rewrite F1, G1; reflexivity).
  rewrite (ls_begin _ _ _ _ A3) in F2, F3. rewrite (ls_begin _ _ _ _ B3) in G2, G3.
  rewrite NE in *. cbn [deref bind].
  do 4 eexists. split; [reflexivity|]. split.
  - constructor; cbn [with_z nz beginTime endTime samples]; auto.
    + apply A3.
    + split; cbn [samples beginTime endTime]; [discriminate|]. rewrite F2. exact ZR.
    + intros t I1 T1 T2. change (In t (map time (zipd op (p :: sl) (q :: sr)))). rewrite <- F1, <- G1.
      rewrite zipd_times by auto. apply (ls_all _ _ _ _ A3); auto. rewrite (times_points E w l Sl). exact I1.
  - cbn [diff value]. unfold atom_fun. rewrite F3, G3. reflexivity.
Qed.

End Atom.
