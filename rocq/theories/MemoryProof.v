(** Ownership: every object belongs to exactly one formula, every formula to exactly one pointer. *)
From Coq Require Import List Bool String Arith Lia Permutation.
From Verif Require Import Base Driver Memory.
Import ListNotations.

(** ** Formulas in memory *)
Inductive ptree := PT (p : ptr) (k : label) (cs : list ptree).
Definition root (t : ptree) : ptr := match t with PT p _ _ => p end.
Fixpoint cells (t : ptree) : list cell := match t with PT p k cs => (p, (k, map root cs)) :: flat_map cells cs end.

Lemma ptree_rect' : forall P : ptree -> Prop, (forall p k cs, Forall P cs -> P (PT p k cs)) -> forall t, P t.
Proof.
  intros P H. fix IH 1. intros [p k cs]. apply H. induction cs as [|c cs IHcs]; constructor; [apply IH|exact IHcs].
Qed.
Lemma fexp_rect' : forall P : fexp -> Prop, (forall x, P (Ref x)) -> (forall k cs, Forall P cs -> P (Obj k cs)) -> forall f, P f.
Proof.
  intros P H0 H. fix IH 1. intros [x|k cs]; [apply H0|]. apply H. induction cs as [|c cs IHcs]; constructor; [apply IH|exact IHcs].
Qed.

Definition keys (l : list cell) : list ptr := map fst l.
Lemma get_in : forall l p c, NoDup (keys l) -> In (p, c) l -> get p l = Some c.
Proof.
  induction l as [|[q c'] l IH]; intros p c N I; [destruct I|]. cbn [keys map fst] in N. inversion N as [|? ? NI N']; subst. cbn [get].
  destruct I as [E|I]; [injection E as -> ->; rewrite Nat.eqb_refl; reflexivity|].
  destruct (Nat.eqb_spec p q) as [->|_]; [|apply IH; assumption]. exfalso. apply NI. apply (in_map fst) in I. exact I.
Qed.
Lemma remove_in : forall l p c, NoDup (keys l) -> In (p, c) l -> Permutation l ((p, c) :: remove p l).
Proof.
  induction l as [|[q c'] l IH]; intros p c N I; [destruct I|]. cbn [keys map fst] in N. inversion N as [|? ? NI N']; subst. cbn [remove].
  destruct I as [E|I]; [injection E as -> ->; rewrite Nat.eqb_refl; reflexivity|].
  destruct (Nat.eqb_spec p q) as [->|_]; [exfalso; apply NI; apply (in_map fst) in I; exact I|].
  rewrite (IH p c N' I) at 1. apply perm_swap.
Qed.
Lemma nodup_perm : forall l l', Permutation l l' -> NoDup (keys l) -> NoDup (keys l').
Proof. intros l l' P. apply Permutation_NoDup. apply Permutation_map. exact P. Qed.
Lemma nodup_tail : forall l l', NoDup (keys (l ++ l')) -> NoDup (keys l').
Proof. intros l l'. unfold keys. rewrite map_app. induction l as [|a l IH]; [exact (fun H => H)|]. cbn [map app]. intro H. inversion H; auto. Qed.

(** ** Deleting *)
Definition deletes (t : ptree) : Prop := forall n h R, List.length (cells t) <= n -> Permutation (h_cells h) (cells t ++ R) -> NoDup (keys (h_cells h)) ->
  exists h', delete_n n (root t) h = Ok h' /\ Permutation (h_cells h') R /\ h_next h' = h_next h.
Lemma each_deletes : forall ts, Forall deletes ts -> forall n h R, List.length (flat_map cells ts) <= n -> Permutation (h_cells h) (flat_map cells ts ++ R) -> NoDup (keys (h_cells h)) ->
  exists h', each (delete_n n) (map root ts) h = Ok h' /\ Permutation (h_cells h') R /\ h_next h' = h_next h.
Proof.
  induction 1 as [|t ts D DS IH]; intros n h R L P ND; [exists h; auto|]. cbn [flat_map] in L, P. rewrite app_length in L. rewrite <- app_assoc in P.
  destruct (D n h (flat_map cells ts ++ R) ltac:(lia) P ND) as (h1 & E1 & P1 & X1).
  assert (ND1 : NoDup (keys (h_cells h1))).
  { apply (nodup_perm _ _ (Permutation_sym P1)). apply (nodup_tail (cells t)). apply (nodup_perm _ _ P). exact ND. }
  destruct (IH n h1 R ltac:(lia) P1 ND1) as (h2 & E2 & P2 & X2). exists h2. cbn [map each]. rewrite E1. cbn [bind]. rewrite E2. split; [reflexivity|]. split; [exact P2|congruence].
Qed.
Lemma delete_ok : forall t, deletes t.
Proof.
  apply ptree_rect'. intros p k cs F n h R L P ND. cbn [cells List.length] in L. destruct n as [|n]; [lia|]. cbn [delete_n root]. cbn [cells app] in P.
  rewrite (get_in _ p (k, map root cs) ND) by (apply (Permutation_in _ (Permutation_sym P)); left; reflexivity).
  assert (P' : Permutation (h_cells h) (flat_map cells cs ++ (p, (k, map root cs)) :: R)) by (rewrite P; apply Permutation_middle).
  destruct (each_deletes cs F n h _ ltac:(lia) P' ND) as (h1 & E1 & P1 & X1). rewrite E1. cbn [bind]. unfold free.
  assert (ND1 : NoDup (keys (h_cells h1))).
  { apply (nodup_perm _ _ (Permutation_sym P1)). apply (nodup_tail (flat_map cells cs)). apply (nodup_perm _ _ P'). exact ND. }
  assert (I1 : In (p, (k, map root cs)) (h_cells h1)) by (apply (Permutation_in _ (Permutation_sym P1)); left; reflexivity).
  rewrite (get_in _ _ _ ND1 I1). eexists. split; [reflexivity|]. cbn [h_cells h_next]. split; [|exact X1].
  apply (Permutation_cons_inv (a := (p, (k, map root cs)))). rewrite <- P1. symmetry. apply remove_in; assumption.
Qed.

(** ** Reading and cloning *)
Definition bounded (h : heap) : Prop := Forall (fun c : cell => fst c < h_next h) (h_cells h).
Definition sound (h : heap) : Prop := NoDup (keys (h_cells h)) /\ bounded h.

Lemma sound_alloc : forall k cs h, sound h -> sound (snd (alloc k cs h)).
Proof.
  intros k cs h [ND B]. split; cbn.
  - constructor; [|exact ND]. intro I. apply in_map_iff in I. destruct I as (c & E & I). unfold bounded in B. rewrite Forall_forall in B. specialize (B c I). lia.
  - constructor; cbn; [lia|]. unfold bounded in B. eapply Forall_impl; [|exact B]. cbn. intros a H. lia.
Qed.

Definition visits (t : ptree) : Prop := forall n h, List.length (cells t) <= n -> incl (cells t) (h_cells h) -> NoDup (keys (h_cells h)) -> visit_n n (root t) h = Ok h.
Lemma visit_ok : forall t, visits t.
Proof.
  apply ptree_rect'. intros p k cs F n h L I ND. cbn [cells List.length] in L. destruct n as [|n]; [lia|]. cbn [visit_n root].
  rewrite (get_in _ p (k, map root cs) ND) by (apply I; left; reflexivity).
  assert (I' : incl (flat_map cells cs) (h_cells h)) by (intros x X; apply I; right; exact X). assert (L' : List.length (flat_map cells cs) <= n) by lia. clear I L.
  induction F as [|c cs V F IH]; [reflexivity|]. cbn [map each flat_map] in *. rewrite app_length in L'. apply incl_app_inv in I'. destruct I' as [A B].
  rewrite (V n h ltac:(lia) A ND). cbn [bind]. apply IH; [exact B|lia].
Qed.

Definition clones (t : ptree) : Prop := forall n h, List.length (cells t) <= n -> incl (cells t) (h_cells h) -> sound h ->
  exists t' h', clone_n n (root t) h = Ok (root t', h') /\ Permutation (h_cells h') (cells t' ++ h_cells h) /\ sound h'.
Lemma each_clones : forall ts, Forall clones ts -> forall n h, List.length (flat_map cells ts) <= n -> incl (flat_map cells ts) (h_cells h) -> sound h ->
  exists ts' h', collect (clone_n n) (map root ts) h = Ok (map root ts', h') /\ Permutation (h_cells h') (flat_map cells ts' ++ h_cells h) /\ sound h' /\
    List.length ts' = List.length ts.
Proof.
  induction 1 as [|t ts C CS IH]; intros n h L I S; [exists [], h; split; [reflexivity|]; split; [reflexivity|auto]|].
  cbn [flat_map] in L, I. rewrite app_length in L. apply incl_app_inv in I. destruct I as [A B].
  destruct (C n h ltac:(lia) A S) as (t' & h1 & E1 & P1 & S1).
  destruct (IH n h1 ltac:(lia)) as (ts' & h2 & E2 & P2 & S2 & L2); [|exact S1|].
  { intros x X. apply (Permutation_in _ (Permutation_sym P1)). apply in_or_app. right. apply B. exact X. }
  exists (t' :: ts'), h2. cbn [map collect]. rewrite E1. cbn [bind]. rewrite E2. cbn [bind]. split; [reflexivity|]. split; [|split; [exact S2|cbn; congruence]].
  rewrite P2, P1. cbn [flat_map]. rewrite !app_assoc. apply Permutation_app_tail. apply Permutation_app_comm.
Qed.
Lemma clone_ok : forall t, clones t.
Proof.
  apply ptree_rect'. intros p k cs F n h L I S. cbn [cells List.length] in L. destruct n as [|n]; [lia|]. cbn [clone_n root].
  rewrite (get_in _ p (k, map root cs) (proj1 S)) by (apply I; left; reflexivity).
  destruct (each_clones cs F n h ltac:(lia)) as (ts' & h1 & E1 & P1 & S1 & _); [intros x X; apply I; right; exact X|exact S|].
  rewrite E1. cbn [bind]. exists (PT (h_next h1) k ts'). eexists. split; [reflexivity|]. cbn [alloc snd h_cells cells app].
  split; [|apply (sound_alloc k (map root ts')); exact S1]. rewrite P1. reflexivity.
Qed.

(** ** Who owns what *)

(** [ps] are the pointers that own formulas, [L] the objects nobody owns any more. *)
Definition own (h : heap) (ps : list ptr) (L : list cell) : Prop :=
  exists ts, map root ts = ps /\ Permutation (h_cells h) (flat_map cells ts ++ L) /\ sound h.

Lemma flat_perm : forall ts ts' : list ptree, Permutation ts ts' -> Permutation (flat_map cells ts) (flat_map cells ts').
Proof.
  induction 1 as [|t ts ts' P IH|t u ts|a b c P1 IH1 P2 IH2]; cbn [flat_map]; [reflexivity|apply Permutation_app_head; exact IH| |rewrite IH1; exact IH2].
  rewrite !app_assoc. apply Permutation_app_tail. apply Permutation_app_comm.
Qed.
Lemma own_perm : forall h ps ps' L, Permutation ps ps' -> own h ps L -> own h ps' L.
Proof.
  intros h ps ps' L P (ts & E & PC & S). subst ps. symmetry in P. apply Permutation_map_inv in P. destruct P as (ts' & -> & P).
  exists ts'. split; [reflexivity|]. split; [|exact S]. rewrite PC. apply Permutation_app_tail. apply flat_perm. exact P.
Qed.
Lemma own_split : forall h ps qs L, own h (ps ++ qs) L -> exists ts us, map root ts = ps /\ map root us = qs /\ Permutation (h_cells h) (flat_map cells ts ++ flat_map cells us ++ L) /\ sound h.
Proof.
  intros h ps qs L (ts & E & P & S). apply map_eq_app in E. destruct E as (a & b & -> & A & B). exists a, b. split; [exact A|]. split; [exact B|]. split; [|exact S]. rewrite flat_map_app, <- app_assoc in P. exact P.
Qed.
Lemma sound_sub : forall h h' l, sound h -> Permutation (h_cells h) (l ++ h_cells h') -> h_next h' = h_next h -> sound h'.
Proof.
  intros h h' l [ND B] P X. split.
  - apply (nodup_tail l). apply (nodup_perm _ _ P). exact ND.
  - unfold bounded in *. rewrite X. rewrite Forall_forall in *. intros c I. apply B. apply (Permutation_in _ (Permutation_sym P)). apply in_or_app. right. exact I.
Qed.

Lemma own_delete1 : forall h p qs L, own h (p :: qs) L -> exists h', delete p h = Ok h' /\ own h' qs L.
Proof.
  intros h p qs L (ts & E & P & S). destruct ts as [|t ts]; [discriminate|]. cbn [map] in E. injection E as <- <-. cbn [flat_map] in P. rewrite <- app_assoc in P.
  destruct (delete_ok t (enough_for h) h (flat_map cells ts ++ L)) as (h' & E' & P' & X); [|exact P|exact (proj1 S)|].
  { unfold enough_for. rewrite (Permutation_length P), app_length. lia. }
  exists h'. split; [exact E'|]. exists ts. split; [reflexivity|]. split; [exact P'|].
  eapply sound_sub; [exact S| |exact X]. rewrite P. apply Permutation_app_head. symmetry. exact P'.
Qed.
Lemma own_delete : forall ps h qs L, own h (ps ++ qs) L -> exists h', each delete ps h = Ok h' /\ own h' qs L.
Proof.
  induction ps as [|p ps IH]; intros h qs L O; [exists h; auto|]. cbn [app] in O. destruct (own_delete1 _ _ _ _ O) as (h1 & E1 & O1).
  destruct (IH _ _ _ O1) as (h2 & E2 & O2). exists h2. cbn [each]. rewrite E1. cbn [bind]. auto.
Qed.
Lemma own_in : forall h ps L p, own h ps L -> In p ps -> exists t, root t = p /\ incl (cells t) (h_cells h) /\ List.length (cells t) <= enough_for h /\ sound h.
Proof.
  intros h ps L p (ts & <- & P & S) I. apply in_map_iff in I. destruct I as (t & <- & I). exists t. split; [reflexivity|].
  assert (IN : incl (cells t) (h_cells h)).
  { intros c C. apply (Permutation_in _ (Permutation_sym P)). apply in_or_app. left. apply in_flat_map. exists t. auto. }
  split; [exact IN|]. split; [|exact S]. unfold enough_for. rewrite (Permutation_length P), app_length.
  apply in_split in I. destruct I as (a & b & ->). rewrite flat_map_app, app_length. cbn [flat_map]. rewrite app_length. lia.
Qed.
Lemma own_visit : forall h ps L p, own h ps L -> In p ps -> visit p h = Ok h.
Proof.
  intros h ps L p O I. destruct (own_in _ _ _ _ O I) as (t & <- & IN & LE & S). apply visit_ok; auto. exact (proj1 S).
Qed.
Lemma own_visits : forall h ps L qs, own h ps L -> incl qs ps -> each visit qs h = Ok h.
Proof.
  intros h ps L qs O. induction qs as [|q qs IH]; intro I; [reflexivity|]. cbn [each]. rewrite (own_visit _ _ _ q O) by (apply I; left; reflexivity). cbn [bind].
  apply IH. intros x X. apply I. right. exact X.
Qed.
Lemma own_clone : forall h ps L p, own h ps L -> In p ps -> exists q h', clone p h = Ok (q, h') /\ own h' (q :: ps) L.
Proof.
  intros h ps L p O I. destruct (own_in _ _ _ _ O I) as (t & <- & IN & LE & S).
  destruct (clone_ok t (enough_for h) h LE IN S) as (t' & h' & E & P & S'). exists (root t'), h'. split; [exact E|].
  destruct O as (ts & <- & P0 & _). exists (t' :: ts). split; [reflexivity|]. split; [|exact S']. cbn [flat_map]. rewrite P, P0, app_assoc. reflexivity.
Qed.
Lemma own_clones : forall qs h ps L, own h ps L -> incl qs ps -> exists rs h', collect clone qs h = Ok (rs, h') /\ own h' (rs ++ ps) L /\ List.length rs = List.length qs.
Proof.
  induction qs as [|q qs IH]; intros h ps L O I; [exists [], h; auto|].
  destruct (own_clone _ _ _ q O) as (r & h1 & E1 & O1); [apply I; left; reflexivity|].
  destruct (IH h1 (r :: ps) L O1) as (rs & h2 & E2 & O2 & LN); [intros x X; right; apply I; right; exact X|].
  exists (r :: rs), h2. cbn [collect]. rewrite E1. cbn [bind]. rewrite E2. cbn [bind]. split; [reflexivity|]. split; [|cbn; congruence].
  eapply own_perm; [|exact O2]. cbn [app]. symmetry. apply Permutation_middle.
Qed.
Lemma own_alloc : forall k qs h ps L, own h (qs ++ ps) L -> own (snd (alloc k qs h)) (fst (alloc k qs h) :: ps) L.
Proof.
  intros k qs h ps L O. apply own_split in O. destruct O as (ts & us & <- & <- & P & S). exists (PT (h_next h) k ts :: us).
  split; [reflexivity|]. split; [|apply sound_alloc; exact S]. cbn [alloc snd h_cells flat_map cells app]. rewrite P, <- app_assoc. reflexivity.
Qed.
Lemma own_forget : forall h p ps L, own h (p :: ps) L -> exists t, own h ps (cells t ++ L).
Proof.
  intros h p ps L (ts & E & P & S). destruct ts as [|t ts]; [discriminate|]. cbn [map] in E. injection E as _ <-. exists t, ts. split; [reflexivity|]. split; [|exact S].
  rewrite P. cbn [flat_map]. rewrite !app_assoc. apply Permutation_app_tail. apply Permutation_app_comm.
Qed.
Lemma own_none : forall h, own h [] [] -> h_cells h = [].
Proof. intros h (ts & E & P & _). destruct ts; [|discriminate]. cbn in P. apply Permutation_nil. symmetry. exact P. Qed.
Lemma own_start : own (mkHeap 0 []) [] [].
Proof. exists []. split; [reflexivity|]. split; [reflexivity|]. split; cbn; constructor. Qed.

Lemma find_in : forall x (m : list (string * ptr)) p, find x m = Some p -> In p (pointers m).
Proof.
  intros x m p. induction m as [|[k q] m IH]; cbn [find pointers map snd]; [discriminate|]. destruct (String.eqb x k); intro H; [left; congruence|right; auto].
Qed.
Lemma own_make : forall env f, closed env f = true -> forall h ps L, own h ps L -> incl (pointers env) ps -> exists p h', make env f h = Ok (p, h') /\ own h' (p :: ps) L.
Proof.
  intros env. apply (fexp_rect' (fun f => closed env f = true -> forall h ps L, own h ps L -> incl (pointers env) ps -> exists p h', make env f h = Ok (p, h') /\ own h' (p :: ps) L)).
  - intros x C h ps L O I. cbn [closed make] in *. destruct (find x env) as [p|] eqn:F; [|discriminate]. apply (own_clone h ps L p O). apply I. eapply find_in. exact F.
  - intros k cs F C h ps L O I. cbn [closed] in C. cbn [make].
    match goal with |- context [bind (?g cs h)] => set (go := g) end.
    assert (G : exists qs h', go cs h = Ok (qs, h') /\ own h' (qs ++ ps) L).
    { revert h ps L O I. induction F as [|c cs H F IH]; intros h ps L O I; [exists [], h; auto|]. cbn [forallb] in C. apply andb_prop in C. destruct C as [C1 C2].
      destruct (H C1 h ps L O I) as (p & h1 & E1 & O1). destruct (IH C2 h1 (p :: ps) L O1) as (qs & h2 & E2 & O2); [intros x X; right; apply I; exact X|].
      exists (p :: qs), h2. split; [|eapply own_perm; [|exact O2]; cbn [app]; symmetry; apply Permutation_middle].
      unfold go at 1. cbn [bind]. fold go. rewrite E1. cbn [bind]. rewrite E2. reflexivity. }
    destruct G as (qs & h1 & E1 & O1). rewrite E1. cbn [bind]. destruct (alloc k qs h1) as [p h2] eqn:A. exists p, h2. split; [reflexivity|].
    assert (X := own_alloc k qs h1 ps L O1). rewrite A in X. exact X.
Qed.
Lemma own_makes : forall env fs, forallb (closed env) fs = true -> forall h ps L, own h ps L -> incl (pointers env) ps ->
  exists qs h', collect (make env) fs h = Ok (qs, h') /\ own h' (qs ++ ps) L.
Proof.
  induction fs as [|f fs IH]; intros C h ps L O I; [exists [], h; auto|]. cbn [forallb] in C. apply andb_prop in C. destruct C as [C1 C2].
  destruct (own_make env f C1 h ps L O I) as (p & h1 & E1 & O1). destruct (IH C2 h1 (p :: ps) L O1) as (qs & h2 & E2 & O2); [intros x X; right; apply I; exact X|].
  exists (p :: qs), h2. cbn [collect]. rewrite E1. cbn [bind]. rewrite E2. cbn [bind]. split; [reflexivity|].
  eapply own_perm; [|exact O2]. cbn [app]. symmetry. apply Permutation_middle.
Qed.
