(** The same histories with values in place of pointers, and the proof that pointers make no difference. *)
From Coq Require Import List Bool String Arith Lia Permutation.
From Verif Require Import Base Driver Memory MemoryProof MemoryClaims.
Import ListNotations.

(** ** Values *)

(** A formula is a value: its operator and its operands. *)
Inductive shape := Sh (k : label) (cs : list shape).
Record vdrv := mkV { v_formulas : list (string * shape); v_tests : list (string * shape); v_queue : list (list shape) }.
Record vworld := mkVW { v_drivers : list (option vdrv); v_monitors : list (option (option shape)) }.
Definition vstart : vworld := mkVW [] [].
Definition vnone : vdrv := mkV [] [] [].

(** A text of a formula with the formulas its names stand for. *)
Fixpoint expand (env : list (string * shape)) (f : fexp) : option shape :=
  match f with
  | Ref x => find x env
  | Obj k cs =>
      match (fix go (cs : list fexp) : option (list shape) :=
               match cs with
               | nil => Some []
               | c :: cs' => match expand env c, go cs' with Some s, Some ss => Some (s :: ss) | _, _ => None end
               end) cs with
      | Some ss => Some (Sh k ss)
      | None => None
      end
  end.

Definition vset_driver (v : vworld) (i : nat) (d : option vdrv) : vworld := mkVW (set i d (v_drivers v)) (v_monitors v).
Definition vadd_driver (v : vworld) (d : vdrv) : vworld := mkVW (v_drivers v ++ [Some d]) (v_monitors v).
Definition vset_monitor (v : vworld) (i : nat) (m : option (option shape)) : vworld := mkVW (v_drivers v) (set i m (v_monitors v)).
Definition vadd_monitor (v : vworld) (m : option shape) : vworld := mkVW (v_drivers v) (v_monitors v ++ [Some m]).

Definition vstep (v : vworld) (o : op) : vworld :=
  let driver i k := match the i (v_drivers v) with Some d => k d | None => v end in
  let monitor i k := match the i (v_monitors v) with Some m => k m | None => v end in
  match o with
  | NewDriver => vadd_driver v vnone
  | CopyDriver i => driver i (fun d => vadd_driver v d)
  | MoveDriver i => driver i (fun d => vadd_driver (vset_driver v i (Some vnone)) d)
  | AssignDriver i j => driver i (fun _ => driver j (fun e => if Nat.eqb i j then v else vset_driver v i (Some e)))
  | MoveAssignDriver i j => driver i (fun _ => driver j (fun e => if Nat.eqb i j then v else vset_driver (vset_driver v j (Some vnone)) i (Some e)))
  | DestroyDriver i => driver i (fun _ => vset_driver v i None)
  | Define i x f => driver i (fun d =>
      match expand (v_formulas d) f with
      | Some s => vset_driver v i (Some (mkV (assign x s (v_formulas d)) (v_tests d) (v_queue d)))
      | None => v
      end)
  | Reject _ _ | UseFormula _ _ | UseAll _ | UseMonitor _ => v
  | Clear i => driver i (fun _ => vset_driver v i (Some vnone))
  | AddTrace i => driver i (fun d => vset_driver v i (Some (mkV (v_formulas d) (v_tests d) (v_queue d ++ [[]]))))
  | AddNew i x f => driver i (fun d =>
      match v_queue d, expand (v_formulas d) f with
      | _ :: _, Some s => vset_driver v i (Some (mkV (v_formulas d) (assign x s (v_tests d)) (push_back s (v_queue d))))
      | _, _ => v
      end)
  | AddKnown i x => driver i (fun d =>
      match v_queue d, find x (v_tests d) with
      | _ :: _, Some s => vset_driver v i (Some (mkV (v_formulas d) (v_tests d) (push_back s (v_queue d))))
      | _, _ => v
      end)
  | RunTests i | PopTrace i => driver i (fun d =>
      match v_queue d with
      | _ :: q => vset_driver v i (Some (mkV (v_formulas d) (v_tests d) q))
      | nil => v
      end)
  | GetMonitor i x => driver i (fun d => vadd_monitor v (find x (v_formulas d)))
  | NewMonitor => vadd_monitor v None
  | CopyMonitor i => monitor i (fun m => vadd_monitor v m)
  | MoveMonitor i => monitor i (fun m => vadd_monitor (vset_monitor v i (Some None)) m)
  | AssignMonitor i j => monitor i (fun _ => monitor j (fun m => if Nat.eqb i j then v else vset_monitor v i (Some m)))
  | MoveAssignMonitor i j => monitor i (fun _ => monitor j (fun m => if Nat.eqb i j then v else vset_monitor (vset_monitor v j (Some None)) i (Some m)))
  | DestroyMonitor i => monitor i (fun _ => vset_monitor v i None)
  end.
Definition vrun (os : list op) (v : vworld) : vworld := fold_left vstep os v.

(** ** What memory says of a pointer *)
Fixpoint shows (h : heap) (p : ptr) (s : shape) {struct s} : Prop :=
  match s with
  | Sh k ss => exists cs, In (p, (k, cs)) (h_cells h) /\
      (fix all (cs : list ptr) (ss : list shape) {struct ss} : Prop :=
         match cs, ss with
         | nil, nil => True
         | c :: cs', s :: ss' => shows h c s /\ all cs' ss'
         | _, _ => False
         end) cs ss
  end.
Definition says (h : heap) (m : list (string * ptr)) (vm : list (string * shape)) : Prop :=
  Forall2 (fun a b => fst a = fst b /\ shows h (snd a) (snd b)) m vm.
Definition says_driver (h : heap) (d : drv) (v : vdrv) : Prop :=
  says h (o_formulas d) (v_formulas v) /\ says h (o_tests d) (v_tests v) /\ Forall2 (Forall2 (shows h)) (o_queue d) (v_queue v).
Definition says_monitor (h : heap) (m : option ptr) (v : option shape) : Prop :=
  match m, v with Some p, Some s => shows h p s | None, None => True | _, _ => False end.
Definition both {A B : Type} (P : A -> B -> Prop) (x : option A) (y : option B) : Prop :=
  match x, y with Some a, Some b => P a b | None, None => True | _, _ => False end.
Definition all_of {A B : Type} (P : A -> B -> Prop) (l : list (option A)) (l' : list (option B)) : Prop :=
  List.length l = List.length l' /\ forall k, both P (the k l) (the k l').
Definition agrees (h : heap) (w : world) (v : vworld) : Prop :=
  all_of (says_driver h) (w_drivers w) (v_drivers v) /\ all_of (says_monitor h) (w_monitors w) (v_monitors v).

(** ** Reading memory *)
Lemma F2_impl : forall A B (P Q : A -> B -> Prop) l l', (forall a b, P a b -> Q a b) -> Forall2 P l l' -> Forall2 Q l l'.
Proof. intros A B P Q l l' H F. induction F; constructor; auto. Qed.
Lemma shape_rect' : forall P : shape -> Prop, (forall k cs, Forall P cs -> P (Sh k cs)) -> forall s, P s.
Proof. intros P H. fix IH 1. intros [k cs]. apply H. induction cs as [|c cs IHcs]; constructor; [apply IH|exact IHcs]. Qed.
Lemma shows_def : forall h p k ss, shows h p (Sh k ss) <-> exists cs, In (p, (k, cs)) (h_cells h) /\ Forall2 (shows h) cs ss.
Proof.
  intros h p k ss. cbn [shows]. split; intros (cs & I & A); exists cs; (split; [exact I|]); clear I; revert cs A.
  - induction ss as [|s ss IH]; intros [|c cs] A; try contradiction; [constructor|]. destruct A as [A B]. constructor; auto.
  - induction ss as [|s ss IH]; intros [|c cs] A; inversion A; subst; [exact I|split; [assumption|apply IH; assumption]].
Qed.
Fixpoint shape_of (t : ptree) : shape := match t with PT _ k cs => Sh k (map shape_of cs) end.
Lemma tree_shows : forall h t, incl (cells t) (h_cells h) -> shows h (root t) (shape_of t).
Proof.
  intros h. apply (ptree_rect' (fun t => incl (cells t) (h_cells h) -> shows h (root t) (shape_of t))). intros p k cs F I. cbn [root shape_of]. apply shows_def.
  exists (map root cs). split; [apply I; left; reflexivity|]. assert (J : incl (flat_map cells cs) (h_cells h)) by (intros x X; apply I; right; exact X). clear I.
  induction F as [|c cs H F IH]; cbn [map]; constructor.
  - apply H. intros x X. apply J. cbn [flat_map]. apply in_or_app. left. exact X.
  - apply IH. intros x X. apply J. cbn [flat_map]. apply in_or_app. right. exact X.
Qed.
Lemma own_shows : forall h ps L p, own h ps L -> In p ps -> exists s, shows h p s.
Proof. intros h ps L p O I. destruct (own_in _ _ _ _ O I) as (t & <- & IN & _). exists (shape_of t). apply tree_shows. exact IN. Qed.
Lemma own_sound : forall h ps L, own h ps L -> sound h.
Proof. intros h ps L (ts & _ & _ & S). exact S. Qed.
Lemma shows_grow : forall s h h' p, incl (h_cells h) (h_cells h') -> shows h p s -> shows h' p s.
Proof.
  intro s. apply (shape_rect' (fun s => forall h h' p, incl (h_cells h) (h_cells h') -> shows h p s -> shows h' p s)). clear s. intros k ss F h h' p I S.
  apply shows_def in S. apply shows_def. destruct S as (cs & IN & A). exists cs. split; [apply I; exact IN|]. clear IN. revert cs A.
  induction F as [|s ss H F IH]; intros cs A; inversion A; subst; constructor; [eapply H; eassumption|apply IH; assumption].
Qed.

(** Objects do not change, and addresses are not used twice. *)
Definition frame (h h' : heap) : Prop := h_next h <= h_next h' /\ forall c : cell, In c (h_cells h') -> fst c < h_next h -> In c (h_cells h).
Definition goes (h h' : heap) : Prop := frame h h' /\ (sound h -> sound h').
Lemma goes_refl : forall h, goes h h.
Proof. intro h. split; [split; auto|auto]. Qed.
Lemma goes_trans : forall a b c, goes a b -> goes b c -> goes a c.
Proof.
  intros a b c [[N1 F1] S1] [[N2 F2] S2]. split; [|auto]. split; [lia|]. intros x I H. apply F1; [|exact H]. apply F2; [exact I|lia].
Qed.
Lemma goes_alloc : forall k cs h, goes h (snd (alloc k cs h)).
Proof.
  intros k cs h. split; [|apply sound_alloc]. split; cbn [alloc snd h_next h_cells]; [lia|]. intros c [<-|I] H; [cbn in H; lia|exact I].
Qed.
Lemma remove_incl : forall p l, incl (remove p l) l.
Proof. intros p l. induction l as [|[q c] l IH]; cbn [remove]; [intros x X; exact X|]. destruct (Nat.eqb p q); intros x X; [right; exact X|]. destruct X as [X|X]; [left; exact X|right; apply IH; exact X]. Qed.
Lemma remove_nodup : forall p l, NoDup (keys l) -> NoDup (keys (remove p l)).
Proof.
  intros p l. induction l as [|[q c] l IH]; intro N; [exact N|]. cbn [remove]. cbn [keys map fst] in N. inversion N as [|? ? NI N']; subst. destruct (Nat.eqb p q); [exact N'|].
  cbn [keys map fst]. constructor; [|apply IH; exact N']. intro I. apply NI. apply in_map_iff in I. destruct I as (x & E & I). apply in_map_iff. exists x. split; [exact E|]. eapply remove_incl. exact I.
Qed.
Lemma goes_free : forall p h h', free p h = Ok h' -> goes h h'.
Proof.
  intros p h h' E. unfold free in E. destruct (get p (h_cells h)); [|discriminate]. injection E as <-. split; [split; cbn [h_next h_cells]; [lia|]|].
  - intros c I _. eapply remove_incl. exact I.
  - intros [N B]. split; cbn [h_cells]; [apply remove_nodup; exact N|]. unfold bounded in *. cbn [h_cells h_next]. rewrite Forall_forall in *. intros c I. apply B. eapply remove_incl. exact I.
Qed.
Lemma goes_each : forall A (f : A -> heap -> res heap), (forall a h h', f a h = Ok h' -> goes h h') -> forall l h h', each f l h = Ok h' -> goes h h'.
Proof.
  intros A f H. induction l as [|a l IH]; intros h h' E; cbn [each] in E; [injection E as <-; apply goes_refl|]. apply bind_ok in E. destruct E as (h1 & E1 & E). eapply goes_trans; [eapply H; exact E1|eapply IH; exact E].
Qed.
Lemma goes_collect : forall A (f : A -> heap -> res (ptr * heap)), (forall a h p h', f a h = Ok (p, h') -> goes h h') -> forall l h ps h', collect f l h = Ok (ps, h') -> goes h h'.
Proof.
  intros A f H. induction l as [|a l IH]; intros h ps h' E; cbn [collect] in E; [injection E as _ <-; apply goes_refl|].
  apply bind_ok in E. destruct E as ([p h1] & E1 & E). apply bind_ok in E. destruct E as ([qs h2] & E2 & E). injection E as _ <-. eapply goes_trans; [eapply H; exact E1|eapply IH; exact E2].
Qed.
Lemma goes_delete_n : forall n p h h', delete_n n p h = Ok h' -> goes h h'.
Proof.
  induction n as [|n IH]; intros p h h' E; [discriminate|]. cbn [delete_n] in E. destruct (get p (h_cells h)) as [[k cs]|]; [|discriminate].
  apply bind_ok in E. destruct E as (h1 & E1 & E). eapply goes_trans; [eapply goes_each; [exact IH|exact E1]|eapply goes_free; exact E].
Qed.
Lemma goes_visit_n : forall n p h h', visit_n n p h = Ok h' -> goes h h'.
Proof.
  induction n as [|n IH]; intros p h h' E; [discriminate|]. cbn [visit_n] in E. destruct (get p (h_cells h)) as [[k cs]|]; [|discriminate]. eapply goes_each; [exact IH|exact E].
Qed.
Lemma goes_clone_n : forall n p h q h', clone_n n p h = Ok (q, h') -> goes h h'.
Proof.
  induction n as [|n IH]; intros p h q h' E; [discriminate|]. cbn [clone_n] in E. destruct (get p (h_cells h)) as [[k cs]|]; [|discriminate].
  apply bind_ok in E. destruct E as ([ps h1] & E1 & E). eapply goes_trans; [eapply goes_collect; [exact IH|exact E1]|]. injection E as E2. change h' with (snd (q, h')). subst q h'. apply (goes_alloc k ps).
Qed.
Lemma goes_delete : forall p h h', delete p h = Ok h' -> goes h h'.
Proof. intros p h h'. apply goes_delete_n. Qed.
Lemma goes_visit : forall p h h', visit p h = Ok h' -> goes h h'.
Proof. intros p h h'. apply goes_visit_n. Qed.
Lemma goes_clone : forall p h q h', clone p h = Ok (q, h') -> goes h h'.
Proof. intros p h q h'. apply goes_clone_n. Qed.
Lemma goes_deletes : forall ps h h', each delete ps h = Ok h' -> goes h h'.
Proof. apply goes_each. exact goes_delete. Qed.

(** What is still there says the same, at all times in between. *)
Lemma mid : forall s h h1 h' p s', sound h -> frame h h1 -> frame h1 h' -> shows h p s -> shows h' p s' -> shows h1 p s.
Proof.
  intro s. apply (shape_rect' (fun s => forall h h1 h' p s', sound h -> frame h h1 -> frame h1 h' -> shows h p s -> shows h' p s' -> shows h1 p s)). clear s.
  intros k ss F h h1 h' p [k' ss'] SO F1 F2 S S'. apply shows_def in S. destruct S as (cs & I & A). apply shows_def in S'. destruct S' as (cs' & I' & A').
  assert (B : p < h_next h) by (destruct SO as [_ B]; unfold bounded in B; rewrite Forall_forall in B; exact (B _ I)).
  assert (I1 : In (p, (k', cs')) (h_cells h1)) by (apply (proj2 F2); [exact I'|cbn; destruct F1 as [N1 _]; lia]).
  assert (I0 : In (p, (k', cs')) (h_cells h)) by (apply (proj2 F1); [exact I1|exact B]).
  assert (E : (k, cs) = (k', cs')) by (assert (X := get_in _ _ _ (proj1 SO) I); assert (Y := get_in _ _ _ (proj1 SO) I0); congruence).
  injection E as <- <-. apply shows_def. exists cs. split; [exact I1|]. clear I I' I1 I0. revert cs A ss' A'.
  induction F as [|s ss H F IH]; intros cs A ss' A'; inversion A; subst; inversion A'; subst; constructor; [eapply H; eassumption|eapply IH; eassumption].
Qed.
Lemma keep : forall s h h' p s', sound h -> goes h h' -> shows h p s -> shows h' p s' -> shows h' p s.
Proof. intros s h h' p s' SO G S S'. eapply mid; [exact SO|apply G|apply (proj1 (goes_refl h'))|exact S|exact S']. Qed.
Lemma kept : forall h h' ps L p s, sound h -> goes h h' -> own h' ps L -> In p ps -> shows h p s -> shows h' p s.
Proof. intros h h' ps L p s SO G O I S. destruct (own_shows _ _ _ _ O I) as (s' & S'). eapply keep; eassumption. Qed.

(** A clone says the same as the original. *)
Definition grows (h h' : heap) : Prop := incl (h_cells h) (h_cells h') /\ goes h h'.
Lemma grows_trans : forall a b c, grows a b -> grows b c -> grows a c.
Proof. intros a b c [I1 G1] [I2 G2]. split; [eapply incl_tran; eassumption|eapply goes_trans; eassumption]. Qed.
Lemma shows_grows : forall h h' p s, grows h h' -> shows h p s -> shows h' p s.
Proof. intros h h' p s [I _]. apply shows_grow. exact I. Qed.
Lemma collect_shows : forall A (f : A -> heap -> res (ptr * heap)) (P : heap -> A -> shape -> Prop),
  (forall h h' a s, grows h h' -> P h a s -> P h' a s) ->
  (forall a h p h' s, sound h -> P h a s -> f a h = Ok (p, h') -> grows h h' /\ shows h' p s) ->
  forall l h ps h' ss, sound h -> Forall2 (P h) l ss -> collect f l h = Ok (ps, h') -> grows h h' /\ Forall2 (shows h') ps ss.
Proof.
  intros A f P M H. induction l as [|a l IH]; intros h ps h' ss SO F E; cbn [collect] in E; inversion F as [|? s ? ss' F1 F2]; subst.
  - injection E as <- <-. split; [split; [apply incl_refl|apply goes_refl]|constructor].
  - apply bind_ok in E. destruct E as ([p h1] & E1 & E). apply bind_ok in E. destruct E as ([qs h2] & E2 & E). injection E as <- <-.
    destruct (H _ _ _ _ _ SO F1 E1) as [G1 S1].
    destruct (IH h1 qs h2 ss') as [G2 S2]; [apply G1; exact SO| |exact E2|].
    { eapply F2_impl; [|exact F2]. intros x y. apply M. exact G1. }
    split; [eapply grows_trans; eassumption|]. constructor; [|exact S2]. eapply shows_grow; [apply G2|exact S1].
Qed.
Lemma alloc_shows : forall k ps h ss p h', sound h -> Forall2 (shows h) ps ss -> alloc k ps h = (p, h') -> grows h h' /\ shows h' p (Sh k ss).
Proof.
  intros k ps h ss p h' SO F E. assert (G := goes_alloc k ps h). rewrite E in G. cbn [snd] in G. unfold alloc in E. injection E as <- <-.
  assert (I : incl (h_cells h) ((h_next h, (k, ps)) :: h_cells h)) by (intros x X; right; exact X). split; [split; [exact I|exact G]|].
  apply shows_def. exists ps. split; [left; reflexivity|]. eapply F2_impl; [|exact F]. intros a b S. eapply shows_grow; [|exact S]. exact I.
Qed.
Lemma clone_n_shows : forall n p h q h' s, sound h -> shows h p s -> clone_n n p h = Ok (q, h') -> grows h h' /\ shows h' q s.
Proof.
  induction n as [|n IH]; intros p h q h' s SO S E; [discriminate|]. cbn [clone_n] in E. destruct s as [k ss]. apply shows_def in S. destruct S as (cs & I & A).
  rewrite (get_in _ _ _ (proj1 SO) I) in E. apply bind_ok in E. destruct E as ([ps h1] & E1 & E).
  destruct (collect_shows ptr (clone_n n) shows shows_grows (fun a h0 p0 h0' s SO0 S0 E0 => IH a h0 p0 h0' s SO0 S0 E0) cs h ps h1 ss SO A E1) as [G1 F1].
  assert (E9 : alloc k ps h1 = (q, h')) by congruence. destruct (alloc_shows k ps h1 ss q h') as [G2 F2]; [apply G1; exact SO|exact F1|exact E9|]. split; [eapply grows_trans; eassumption|exact F2].
Qed.
Lemma clone_shows : forall p h q h' s, sound h -> shows h p s -> clone p h = Ok (q, h') -> grows h h' /\ shows h' q s.
Proof. intros p h q h' s. apply clone_n_shows. Qed.

(** ** Names *)
Lemma says_grow : forall h h' m vm, grows h h' -> says h m vm -> says h' m vm.
Proof. intros h h' m vm G F. unfold says in *. induction F as [|a b m vm [N S] F IH]; constructor; [|exact IH]. split; [exact N|]. eapply shows_grow; [apply G|exact S]. Qed.
Lemma says_find : forall h m vm x, says h m vm -> match find x m, find x vm with Some p, Some s => shows h p s | None, None => True | _, _ => False end.
Proof.
  intros h m vm x F. unfold says in F. induction F as [|[k p] [k' s] m vm [N S] F IH]; cbn [find]; [exact I|]. cbn [fst snd] in *. subst k'. destruct (String.eqb x k); [exact S|exact IH].
Qed.
Lemma says_assign : forall h m vm x p s, says h m vm -> shows h p s -> says h (assign x p m) (assign x s vm).
Proof.
  intros h m vm x p s F S. unfold says in *. induction F as [|[k q] [k' s'] m vm [N S'] F IH]; cbn [assign]; [constructor; [split; [reflexivity|exact S]|constructor]|].
  cbn [fst snd] in *. subst k'. destruct (String.eqb x k); constructor; try (split; [reflexivity|assumption]); assumption.
Qed.
Lemma says_pointers : forall h m vm, says h m vm -> Forall2 (shows h) (pointers m) (map snd vm).
Proof. intros h m vm F. unfold says, pointers in *. induction F as [|a b m vm [N S] F IH]; constructor; assumption. Qed.
Lemma says_combine : forall h h' m vm ps, says h m vm -> Forall2 (shows h') ps (map snd vm) -> says h' (combine (map fst m) ps) vm.
Proof.
  intros h h' m vm ps F. revert ps. unfold says in *. induction F as [|a b m vm [N S] F IH]; intros ps G; cbn [map combine] in *; inversion G; subst; constructor; [|apply IH; assumption].
  cbn [fst snd]. split; [exact N|assumption].
Qed.
Lemma clone_map_says : forall m vm h m' h', sound h -> says h m vm -> clone_map m h = Ok (m', h') -> grows h h' /\ says h' m' vm.
Proof.
  intros m vm h m' h' SO S E. unfold clone_map in E. apply bind_ok in E. destruct E as ([ps h1] & E1 & E). injection E as <- <-.
  destruct (collect_shows ptr clone shows shows_grows clone_shows (pointers m) h ps h1 (map snd vm) SO (says_pointers _ _ _ S) E1) as [G F].
  split; [exact G|]. eapply says_combine; eassumption.
Qed.
Lemma maybe_clone_says : forall m v h m' h', sound h -> says_monitor h m v -> maybe_clone m h = Ok (m', h') -> goes h h' /\ says_monitor h' m' v.
Proof.
  intros m v h m' h' SO S E. destruct m as [p|], v as [s|]; cbn [says_monitor maybe_clone] in *; try contradiction.
  - apply bind_ok in E. destruct E as ([q h1] & E1 & E). injection E as <- <-. destruct (clone_shows _ _ _ _ _ SO S E1) as [G F]. split; [apply G|exact F].
  - injection E as <- <-. split; [apply goes_refl|exact I].
Qed.
Lemma closed_expand : forall h env venv, says h env venv -> forall f, if closed env f then exists s, expand venv f = Some s else expand venv f = None.
Proof.
  intros h env venv S. apply fexp_rect'.
  - intro x. cbn [closed expand]. assert (X := says_find _ _ _ x S). destruct (find x env), (find x venv); try contradiction; [eexists; reflexivity|reflexivity].
  - intros k cs F. cbn [closed expand]. match goal with |- context [match ?g cs with Some _ => _ | None => _ end] => set (go := g) end.
    assert (G : if forallb (closed env) cs then exists ss, go cs = Some ss else go cs = None).
    { induction F as [|c cs H F IH]; [exists []; reflexivity|]. cbn [forallb]. unfold go. fold go. destruct (closed env c).
      - destruct H as (s & ->). cbn [andb]. destruct (forallb (closed env) cs); [destruct IH as (ss & IH); rewrite IH; eexists; reflexivity|rewrite IH; reflexivity].
      - cbn [andb]. rewrite H. reflexivity. }
    destruct (forallb (closed env) cs); [destruct G as (ss & ->); eexists; reflexivity|rewrite G; reflexivity].
Qed.
Lemma make_shows : forall env venv f h p h' s, sound h -> says h env venv -> make env f h = Ok (p, h') -> expand venv f = Some s -> grows h h' /\ shows h' p s.
Proof.
  intros env venv f. apply (fexp_rect' (fun f => forall h p h' s, sound h -> says h env venv -> make env f h = Ok (p, h') -> expand venv f = Some s -> grows h h' /\ shows h' p s)); clear f.
  - intros x h p h' s SO S E X. cbn [make expand] in *. assert (Y := says_find _ _ _ x S). rewrite X in Y. destruct (find x env) as [q|]; [|contradiction]. eapply clone_shows; eassumption.
  - intros k cs F h p h' s SO S E X. cbn [make expand] in *.
    match type of E with bind (?g cs h) _ = _ => set (go := g) in E end. match type of X with match ?g cs with Some _ => _ | None => _ end = _ => set (vgo := g) in X end.
    destruct (vgo cs) as [ss|] eqn:V; [|discriminate]. injection X as <-. apply bind_ok in E. destruct E as ([ps h1] & E1 & E). assert (E9 : alloc k ps h1 = (p, h')) by congruence.
    assert (G : grows h h1 /\ Forall2 (shows h1) ps ss).
    { clear E E9. revert h ps h1 ss SO S E1 V. induction F as [|c cs H F IH]; intros h ps h1 ss SO S E1 V.
      - unfold go in E1. injection E1 as <- <-. unfold vgo in V. injection V as <-. split; [split; [apply incl_refl|apply goes_refl]|constructor].
      - unfold go in E1. fold go in E1. apply bind_ok in E1. destruct E1 as ([q h2] & E2 & E1). apply bind_ok in E1. destruct E1 as ([qs h3] & E3 & E1). injection E1 as <- <-.
        unfold vgo in V. fold vgo in V. destruct (expand venv c) as [s|] eqn:X; [|discriminate]. destruct (vgo cs) as [ss'|] eqn:V'; [|discriminate]. injection V as <-.
        destruct (H _ _ _ _ SO S E2 eq_refl) as [G1 S1]. destruct (IH h2 qs h3 ss') as [G2 S2]; [apply G1; exact SO|eapply says_grow; eassumption|exact E3|reflexivity|].
        split; [eapply grows_trans; eassumption|]. constructor; [|exact S2]. eapply shows_grow; [apply G2|exact S1]. }
    destruct G as [G1 S1]. destruct (alloc_shows k ps h1 ss p h') as [G2 S2]; [apply G1; exact SO|exact S1|exact E9|]. split; [eapply grows_trans; eassumption|exact S2].
Qed.

(** ** All drivers and monitors *)
Lemma the_lt : forall A (l : list (option A)) i d, the i l = Some d -> i < List.length l.
Proof. intros A l i d H. unfold the in H. destruct (nth_error l i) eqn:E; [|discriminate]. apply nth_error_Some. congruence. Qed.
Lemma set_length : forall A (l : list A) i v, List.length (set i v l) = List.length l.
Proof. intros A l. induction l as [|x l IH]; intros [|i] v; cbn; auto. Qed.
Lemma the_set_eq : forall A (l : list (option A)) i v, i < List.length l -> the i (set i v l) = v.
Proof. intros A l. unfold the. induction l as [|x l IH]; intros [|i] v H; cbn in *; try lia; [reflexivity|]. apply IH. lia. Qed.
Lemma the_app : forall A (l : list (option A)) x k, the k (l ++ [x]) = if Nat.eqb k (List.length l) then x else the k l.
Proof.
  intros A l x k. unfold the. destruct (Nat.eqb_spec k (List.length l)) as [->|NE]; [rewrite nth_error_app2, Nat.sub_diag by lia; reflexivity|].
  destruct (Nat.lt_ge_cases k (List.length l)) as [H|H]; [rewrite nth_error_app1 by exact H; reflexivity|].
  assert (X : nth_error (l ++ [x]) k = None) by (apply nth_error_None; rewrite app_length; cbn; lia). assert (Y : nth_error l k = None) by (apply nth_error_None; lia). rewrite X, Y. reflexivity.
Qed.
Section AllOf.
  Context {A B : Type}.
  Lemma all_keep : forall (P P' : A -> B -> Prop) l l', all_of P l l' -> (forall k a b, the k l = Some a -> P a b -> P' a b) -> all_of P' l l'.
  Proof.
    intros P P' l l' [L F] H. split; [exact L|]. intro k. specialize (F k). specialize (H k). destruct (the k l), (the k l'); cbn [both] in *; auto.
  Qed.
  Lemma all_set : forall (P P' : A -> B -> Prop) l l' i x y, all_of P l l' -> i < List.length l ->
    (forall k a b, the k (set i x l) = Some a -> P a b -> P' a b) -> both P' x y -> all_of P' (set i x l) (set i y l').
  Proof.
    intros P P' l l' i x y [L F] I H X. split; [rewrite !set_length; exact L|]. intro k. destruct (Nat.eq_dec k i) as [->|NE].
    - rewrite !the_set_eq by lia. exact X.
    - specialize (H k). rewrite the_set in H by exact NE. rewrite !the_set by exact NE. specialize (F k). destruct (the k l), (the k l'); cbn [both] in *; auto.
  Qed.
  Lemma all_add : forall (P P' : A -> B -> Prop) l l' x y, all_of P l l' -> (forall k a b, the k (l ++ [Some x]) = Some a -> P a b -> P' a b) -> P' x y ->
    all_of P' (l ++ [Some x]) (l' ++ [Some y]).
  Proof.
    intros P P' l l' x y [L F] H X. split; [rewrite !app_length; cbn; lia|]. intro k. specialize (H k). rewrite the_app in H. rewrite !the_app. rewrite <- L.
    destruct (Nat.eqb k (List.length l)); [exact X|]. specialize (F k). destruct (the k l), (the k l'); cbn [both] in *; auto.
  Qed.
End AllOf.

Lemma says_kept : forall h h' ps L m vm, sound h -> goes h h' -> own h' ps L -> incl (pointers m) ps -> says h m vm -> says h' m vm.
Proof.
  intros h h' ps L m vm SO G O I F. unfold says, pointers in *. induction F as [|a b m vm [N S] F IH]; constructor.
  - split; [exact N|]. eapply kept; try eassumption. apply I. left. reflexivity.
  - apply IH. intros x X. apply I. right. exact X.
Qed.
Lemma driver_kept : forall h h' ps L d v, sound h -> goes h h' -> own h' ps L -> incl (owned d) ps -> says_driver h d v -> says_driver h' d v.
Proof.
  intros h h' ps L d v SO G O I (F & T & Q). unfold owned in I. apply incl_app_inv in I. destruct I as [I1 I]. apply incl_app_inv in I. destruct I as [I2 I3].
  split; [eapply says_kept; eassumption|]. split; [eapply says_kept; eassumption|]. clear - SO G O I3 Q. induction Q as [|r s q vq F Q IH]; constructor.
  - cbn [List.concat] in I3. apply incl_app_inv in I3. destruct I3 as [I _]. clear - SO G O I F. induction F as [|p s r ss S F IH]; constructor; [eapply kept; try eassumption; apply I; left; reflexivity|].
    apply IH. intros x X. apply I. right. exact X.
  - apply IH. cbn [List.concat] in I3. apply incl_app_inv in I3. apply I3.
Qed.
Lemma monitor_kept : forall h h' ps L m v, sound h -> goes h h' -> own h' ps L -> incl (maybe m) ps -> says_monitor h m v -> says_monitor h' m v.
Proof. intros h h' ps L [p|] [s|] SO G O I S; cbn in *; auto. eapply kept; try eassumption. apply I. left. reflexivity. Qed.

Section Kept.
  Variables (h : heap) (w w' : world) (L' : list cell).
  Hypotheses (SO : sound h) (G : goes h (w_heap w')) (I' : Inv w' L').
  Lemma kept_driver : forall k d v, the k (w_drivers w') = Some d -> says_driver h d v -> says_driver (w_heap w') d v.
  Proof. intros k d v H. eapply driver_kept; [exact SO|exact G|exact I'|]. eapply driver_owned. exact H. Qed.
  Lemma kept_monitor : forall k m v, the k (w_monitors w') = Some m -> says_monitor h m v -> says_monitor (w_heap w') m v.
  Proof. intros k m v H. eapply monitor_kept; [exact SO|exact G|exact I'|]. eapply monitor_owned. exact H. Qed.
  Lemma agrees_keep : forall v, agrees h w' v -> agrees (w_heap w') w' v.
  Proof. intros v [D M]. split; [eapply all_keep; [exact D|exact kept_driver]|eapply all_keep; [exact M|exact kept_monitor]]. Qed.
End Kept.
Section Sets.
  Variables (w : world) (v : vworld) (h' : heap) (L' : list cell).
  Hypotheses (SO : sound (w_heap w)) (G : goes (w_heap w) h') (R : agrees (w_heap w) w v).
  Lemma agrees_same : Inv (mkW h' (w_drivers w) (w_monitors w)) L' -> agrees h' (mkW h' (w_drivers w) (w_monitors w)) v.
  Proof. intro I. exact (agrees_keep (w_heap w) (mkW h' (w_drivers w) (w_monitors w)) L' SO G I v R). Qed.
  Lemma agrees_set_driver : forall i d0 d e, the i (w_drivers w) = Some d0 -> Inv (with_driver w h' i d) L' -> both (says_driver h') d e ->
    agrees h' (with_driver w h' i d) (vset_driver v i e).
  Proof.
    intros i d0 d e H I B. destruct R as [RD RM]. split.
    - cbn [with_driver vset_driver w_drivers v_drivers]. eapply all_set; [exact RD|eapply the_lt; exact H| |exact B]. exact (kept_driver (w_heap w) (with_driver w h' i d) L' SO G I).
    - cbn [with_driver vset_driver w_monitors v_monitors]. eapply all_keep; [exact RM|]. exact (kept_monitor (w_heap w) (with_driver w h' i d) L' SO G I).
  Qed.
  Lemma agrees_add_driver : forall d e, Inv (add_driver w h' d) L' -> says_driver h' d e -> agrees h' (add_driver w h' d) (vadd_driver v e).
  Proof.
    intros d e I B. destruct R as [RD RM]. split.
    - cbn [add_driver vadd_driver w_drivers v_drivers]. eapply all_add; [exact RD| |exact B]. exact (kept_driver (w_heap w) (add_driver w h' d) L' SO G I).
    - cbn [add_driver vadd_driver w_monitors v_monitors]. eapply all_keep; [exact RM|]. exact (kept_monitor (w_heap w) (add_driver w h' d) L' SO G I).
  Qed.
  Lemma agrees_set_monitor : forall i d0 d e, the i (w_monitors w) = Some d0 -> Inv (with_monitor w h' i d) L' -> both (says_monitor h') d e ->
    agrees h' (with_monitor w h' i d) (vset_monitor v i e).
  Proof.
    intros i d0 d e H I B. destruct R as [RD RM]. split.
    - cbn [with_monitor vset_monitor w_drivers v_drivers]. eapply all_keep; [exact RD|]. exact (kept_driver (w_heap w) (with_monitor w h' i d) L' SO G I).
    - cbn [with_monitor vset_monitor w_monitors v_monitors]. eapply all_set; [exact RM|eapply the_lt; exact H| |exact B]. exact (kept_monitor (w_heap w) (with_monitor w h' i d) L' SO G I).
  Qed.
  Lemma agrees_add_monitor : forall d e, Inv (add_monitor w h' d) L' -> says_monitor h' d e -> agrees h' (add_monitor w h' d) (vadd_monitor v e).
  Proof.
    intros d e I B. destruct R as [RD RM]. split.
    - cbn [add_monitor vadd_monitor w_drivers v_drivers]. eapply all_keep; [exact RD|]. exact (kept_driver (w_heap w) (add_monitor w h' d) L' SO G I).
    - cbn [add_monitor vadd_monitor w_monitors v_monitors]. eapply all_add; [exact RM| |exact B]. exact (kept_monitor (w_heap w) (add_monitor w h' d) L' SO G I).
  Qed.
End Sets.
(** The same without a change of memory. *)
Lemma at_driver : forall h w v i d0 d e, agrees h w v -> the i (w_drivers w) = Some d0 -> both (says_driver h) d e -> forall h1, agrees h (with_driver w h1 i d) (vset_driver v i e).
Proof.
  intros h w v i d0 d e [RD RM] H B h1. split; [|exact RM]. cbn [with_driver vset_driver w_drivers v_drivers]. eapply all_set; [exact RD|eapply the_lt; exact H| |exact B]. auto.
Qed.
Lemma at_monitor : forall h w v i d0 d e, agrees h w v -> the i (w_monitors w) = Some d0 -> both (says_monitor h) d e -> forall h1, agrees h (with_monitor w h1 i d) (vset_monitor v i e).
Proof.
  intros h w v i d0 d e [RD RM] H B h1. split; [exact RD|]. cbn [with_monitor vset_monitor w_monitors v_monitors]. eapply all_set; [exact RM|eapply the_lt; exact H| |exact B]. auto.
Qed.
Lemma new_driver : forall h w v d e, agrees h w v -> says_driver h d e -> forall h1, agrees h (add_driver w h1 d) (vadd_driver v e).
Proof. intros h w v d e [RD RM] B h1. split; [|exact RM]. cbn [add_driver vadd_driver w_drivers v_drivers]. eapply all_add; [exact RD| |exact B]. auto. Qed.
Lemma new_monitor : forall h w v d e, agrees h w v -> says_monitor h d e -> forall h1, agrees h (add_monitor w h1 d) (vadd_monitor v e).
Proof. intros h w v d e [RD RM] B h1. split; [exact RD|]. cbn [add_monitor vadd_monitor w_monitors v_monitors]. eapply all_add; [exact RM| |exact B]. auto. Qed.
Lemma says_empty : forall h, says_driver h (mkD [] [] []) vnone.
Proof. intro h. repeat split; constructor. Qed.

(** ** One operation *)
Lemma driver_both : forall h w v i, agrees h w v -> match the i (w_drivers w), the i (v_drivers v) with Some d, Some e => says_driver h d e | None, None => True | _, _ => False end.
Proof. intros h w v i [[_ D] _]. exact (D i). Qed.
Lemma monitor_both : forall h w v i, agrees h w v -> match the i (w_monitors w), the i (v_monitors v) with Some d, Some e => says_monitor h d e | None, None => True | _, _ => False end.
Proof. intros h w v i [_ [_ D]]. exact (D i). Qed.
Lemma says_queue_push : forall h p s q vq, Forall2 (Forall2 (shows h)) q vq -> shows h p s -> Forall2 (Forall2 (shows h)) (push_back p q) (push_back s vq).
Proof.
  intros h p s q vq F S. induction F as [|r vr q vq F1 F IH]; [constructor|]. destruct F as [|r' vr' q vq F2 F].
  - cbn [push_back]. constructor; [|constructor]. apply Forall2_app; [exact F1|]. constructor; [exact S|constructor].
  - change (push_back p (r :: r' :: q)) with (r :: push_back p (r' :: q)). change (push_back s (vr :: vr' :: vq)) with (vr :: push_back s (vr' :: vq)). constructor; [exact F1|exact IH].
Qed.
Ltac look_d w v i R d e H V S :=
  let X := fresh "X" in assert (X := driver_both _ w v i R); destruct (the i (w_drivers w)) as [d|] eqn:H, (the i (v_drivers v)) as [e|] eqn:V; try contradiction; [rename X into S|clear X].
Ltac look_m w v i R d e H V S :=
  let X := fresh "X" in assert (X := monitor_both _ w v i R); destruct (the i (w_monitors w)) as [d|] eqn:H, (the i (v_monitors v)) as [e|] eqn:V; try contradiction; [rename X into S|clear X].

Lemma says_driver_grow : forall h h' d v, grows h h' -> says_driver h d v -> says_driver h' d v.
Proof.
  intros h h' d v G (S1 & S2 & S3). split; [eapply says_grow; eassumption|]. split; [eapply says_grow; eassumption|].
  eapply F2_impl; [|exact S3]. intros a b. apply F2_impl. intros p s. apply shows_grows. exact G.
Qed.
Lemma goes_make : forall env f h p h', make env f h = Ok (p, h') -> goes h h'.
Proof.
  intros env f. apply (fexp_rect' (fun f => forall h p h', make env f h = Ok (p, h') -> goes h h')); clear f.
  - intros x h p h' E. cbn [make] in E. destruct (find x env); [|discriminate]. eapply goes_clone. exact E.
  - intros k cs F h p h' E. cbn [make] in E. match type of E with bind (?g cs h) _ = _ => set (go := g) in E end.
    apply bind_ok in E. destruct E as ([ps h1] & E1 & E). assert (G2 := goes_alloc k ps h1). replace (alloc k ps h1) with (p, h') in G2 by congruence.
    eapply goes_trans; [|exact G2]. clear E G2. revert h ps h1 E1. induction F as [|c cs H F IH]; intros h ps h1 E1.
    + injection E1 as _ <-. apply goes_refl.
    + unfold go in E1. fold go in E1. apply bind_ok in E1. destruct E1 as ([q h2] & E2 & E1). apply bind_ok in E1. destruct E1 as ([qs h3] & E3 & E1). injection E1 as _ <-.
      eapply goes_trans; [eapply H; exact E2|eapply IH; exact E3].
Qed.

Lemma step_agrees : forall w v o w' L, Inv w L -> allowed w o -> agrees (w_heap w) w v -> step w o = Ok w' -> agrees (w_heap w') w' (vstep v o).
Proof.
  intros w v o w' L I A R E. destruct (step_good w o L I A) as (w1 & L1 & E1 & I1 & _). rewrite E in E1. injection E1 as <-.
  assert (SO := own_sound _ _ _ I).
  destruct o as [ |i|i|i j|i j|i|i x f|i fs|i x|i|i|i|i x f|i x|i|i|i x| |i|i|i j|i j|i|i]; cbn [allowed step vstep] in *.
  - (* NewDriver *) injection E as <-. apply new_driver; [exact R|apply says_empty].
  - (* CopyDriver *) look_d w v i R d e H V K; [|injection E as <-; exact R]. unbind E. injection E as <-. destruct K as (S1 & S2 & S3). destruct (A d eq_refl) as [U1 U2].
    destruct (clone_map_says _ _ _ _ _ SO S1 E0) as [G M]. eapply agrees_add_driver; [exact SO|apply G|exact R|exact I1|]. split; [exact M|]. cbn [o_tests o_queue]. split.
    + eapply says_grow; [exact G|exact S2].
    + eapply F2_impl; [|exact S3]. intros a b. apply F2_impl. intros p s. apply shows_grows. exact G.
  - (* MoveDriver *) look_d w v i R d e H V K; [|injection E as <-; exact R]. injection E as <-. apply new_driver; [|exact K]. eapply at_driver; [exact R|exact H|]. apply says_empty.
  - (* AssignDriver *) look_d w v i R d e H V K; [|injection E as <-; exact R]. look_d w v j R d' e' H' V' K'; [|injection E as <-; exact R].
    destruct (Nat.eqb_spec i j) as [->|NE]; [injection E as <-; exact R|]. destruct A as [A|A]; [contradiction|]. destruct (A d' eq_refl) as [U1 U2].
    apply bind_ok in E. destruct E as (h1 & E1 & E). apply bind_ok in E. destruct E as (h2 & E2 & E). apply bind_ok in E. destruct E as (h3 & E3 & E). apply bind_ok in E. destruct E as ([m h4] & E4 & E).
    injection E as <-. destruct K' as (S1 & S2 & S3).
    assert (G3 : goes (w_heap w) h3) by (eapply goes_trans; [eapply goes_deletes; exact E1|]; eapply goes_trans; [eapply goes_deletes; exact E2|eapply goes_deletes; exact E3]).
    assert (G4 : goes h3 h4) by (unfold clone_map in E4; unbind E4; injection E4 as _ <-; eapply goes_collect; [exact goes_clone|eassumption]).
    assert (S1' : says h3 (o_formulas d') (v_formulas e')).
    { assert (J : incl (pointers (o_formulas d')) (roots (with_driver w h4 i (Some (mkD m (o_tests d') (o_queue d')))))).
      { intros p P. eapply driver_owned; [|apply formulas_owned; exact P]. cbn [with_driver w_drivers]. rewrite the_set by (apply not_eq_sym; exact NE). exact H'. }
      clear - SO G3 G4 I1 S1 J. unfold says, pointers in *. induction S1 as [|a b l vl [N S] F IH]; constructor; [|apply IH; intros p P; apply J; right; exact P].
      split; [exact N|]. destruct (own_shows _ _ _ (snd a) I1) as (s' & S'); [apply J; left; reflexivity|]. eapply mid; [exact SO|apply G3|apply G4|exact S|exact S']. }
    destruct (clone_map_says _ _ _ _ _ (proj2 G3 SO) S1' E4) as [_ M].
    eapply agrees_set_driver; [exact SO|eapply goes_trans; eassumption|exact R|exact H|exact I1|]. cbn [both]. split; [exact M|]. cbn [o_tests o_queue].
    (* the tests of the source: there are none *)
    rewrite U1 in *. inversion S2 as [EV|]. split; [constructor|]. clear - S3 U2. induction S3 as [|r vr q vq F1 F IH]; constructor.
    + cbn [List.concat] in U2. apply app_eq_nil in U2. destruct U2 as [-> _]. inversion F1. constructor.
    + apply IH. cbn [List.concat] in U2. apply app_eq_nil in U2. apply U2.
  - (* MoveAssignDriver *) look_d w v i R d e H V K; [|injection E as <-; exact R]. look_d w v j R d' e' H' V' K'; [|injection E as <-; exact R].
    destruct (Nat.eqb_spec i j) as [->|NE]; [injection E as <-; exact R|].
    apply bind_ok in E. destruct E as (h1 & E1 & E). apply bind_ok in E. destruct E as (h2 & E2 & E). apply bind_ok in E. destruct E as (h3 & E3 & E). injection E as <-.
    assert (G3 : goes (w_heap w) h3) by (eapply goes_trans; [eapply goes_deletes; exact E1|]; eapply goes_trans; [eapply goes_deletes; exact E2|eapply goes_deletes; exact E3]).
    eapply agrees_keep; [exact SO|exact G3|exact I1|]. eapply at_driver; [eapply at_driver; [exact R|exact H'|apply says_empty]| |exact K'].
    cbn [with_driver w_drivers]. rewrite the_set by exact NE. exact H.
  - (* DestroyDriver *) look_d w v i R d e H V K; [|injection E as <-; exact R].
    apply bind_ok in E. destruct E as (h1 & E1 & E). apply bind_ok in E. destruct E as (h2 & E2 & E). apply bind_ok in E. destruct E as (h3 & E3 & E). injection E as <-.
    assert (G3 : goes (w_heap w) h3) by (eapply goes_trans; [eapply goes_deletes; exact E1|]; eapply goes_trans; [eapply goes_deletes; exact E2|eapply goes_deletes; exact E3]).
    eapply agrees_set_driver; [exact SO|exact G3|exact R|exact H|exact I1|exact Logic.I].
  - (* Define *) look_d w v i R d e H V K; [|injection E as <-; exact R]. destruct K as (S1 & S2 & S3). assert (C := closed_expand _ _ _ S1 f).
    destruct (closed (o_formulas d) f); [|rewrite C; injection E as <-; exact R]. destruct C as (s & C). rewrite C. apply bind_ok in E. destruct E as ([p h1] & E1 & E). injection E as <-.
    destruct (make_shows _ _ _ _ _ _ _ SO S1 E1 C) as [G M]. eapply agrees_set_driver; [exact SO|apply G|exact R|exact H|exact I1|]. cbn [both]. split; [|split]; cbn [o_formulas o_tests o_queue v_formulas v_tests v_queue].
    + apply says_assign; [eapply says_grow; eassumption|exact M].
    + eapply says_grow; eassumption.
    + eapply F2_impl; [|exact S3]. intros a b. apply F2_impl. intros q u. apply shows_grows. exact G.
  - (* Reject *) look_d w v i R d e H V K; [|injection E as <-; exact R]. destruct (forallb (closed (o_formulas d)) fs); [|injection E as <-; exact R].
    apply bind_ok in E. destruct E as ([ps h1] & E1 & E). apply bind_ok in E. destruct E as (h2 & E2 & E). injection E as <-.
    eapply agrees_same; [exact SO| |exact R|exact I1]. eapply goes_trans; [|eapply goes_deletes; exact E2].
    eapply goes_collect; [|exact E1]. intros a h p h'. apply goes_make.
  - (* UseFormula *) look_d w v i R d e H V K; [|injection E as <-; exact R]. destruct (find x (o_formulas d)); [|injection E as <-; exact R]. apply bind_ok in E. destruct E as (h1 & E1 & E). injection E as <-.
    eapply agrees_same; [exact SO|eapply goes_visit; exact E1|exact R|exact I1].
  - (* UseAll *) look_d w v i R d e H V K; [|injection E as <-; exact R]. apply bind_ok in E. destruct E as (h1 & E1 & E). injection E as <-.
    eapply agrees_same; [exact SO|eapply goes_each; [exact goes_visit|exact E1]|exact R|exact I1].
  - (* Clear *) look_d w v i R d e H V K; [|injection E as <-; exact R]. rewrite (A d eq_refl) in E.
    apply bind_ok in E. destruct E as (h1 & E1 & E). apply bind_ok in E. destruct E as (h2 & E2 & E). injection E as <-.
    eapply agrees_set_driver; [exact SO| |exact R|exact H|exact I1|apply says_empty]. eapply goes_trans; eapply goes_deletes; eassumption.
  - (* AddTrace *) look_d w v i R d e H V K; [|injection E as <-; exact R]. injection E as <-. eapply at_driver; [exact R|exact H|]. destruct K as (S1 & S2 & S3). split; [exact S1|]. split; [exact S2|].
    cbn [o_queue v_queue]. apply Forall2_app; [exact S3|]. constructor; [constructor|constructor].
  - (* AddNew *) look_d w v i R d e H V K; [|injection E as <-; exact R]. destruct K as (S1 & S2 & S3). assert (C := closed_expand _ _ _ S1 f).
    destruct (closed (o_formulas d) f) eqn:CL; [|rewrite C; injection E as <-; destruct (v_queue e); exact R]. destruct C as (s & C). rewrite C. apply bind_ok in E. destruct E as ([p h1] & E1 & E).
    destruct (make_shows _ _ _ _ _ _ _ SO S1 E1 C) as [G1 M1].
    inversion S3 as [Q1 Q2|r vr q vq F1 F2 Q1 Q2].
    + rewrite <- Q1 in E. injection E as <-.
      assert (X : vset_driver v i (Some e) = v) by (unfold vset_driver; rewrite set_same by exact V; destruct v; reflexivity). rewrite <- X.
      eapply agrees_set_driver; [exact SO|apply G1|exact R|exact H|exact I1|]. cbn [both]. split; [|split].
      * eapply says_grow; eassumption.
      * eapply says_grow; eassumption.
      * eapply F2_impl; [|exact S3]. intros a b. apply F2_impl. intros y u. apply shows_grows. exact G1.
    + rewrite <- Q1 in E. rewrite Q1 in E. rewrite Q2.
      destruct (driver_at _ _ _ _ I H) as (r0 & O & _).
      destruct (own_make _ _ CL _ _ _ O) as (p' & h1' & E1' & O1); [intros y Y; apply in_or_app; left; apply formulas_owned; exact Y|]. rewrite E1 in E1'. injection E1' as <- <-.
      apply bind_ok in E. destruct E as ([a h2] & E2 & E). apply bind_ok in E. destruct E as (h3 & E3 & E). apply bind_ok in E. destruct E as ([b h4] & E4 & E). apply bind_ok in E. destruct E as ([c h5] & E5 & E). injection E as <-.
      destruct (own_clone _ _ _ p O1) as (a' & h2' & E2' & O2); [left; reflexivity|]. rewrite E2 in E2'. injection E2' as <- <-.
      destruct (own_delete1 _ _ _ _ O2) as (h3' & E3' & O3). rewrite E3 in E3'. injection E3' as <-.
      assert (SO1 := own_sound _ _ _ O1). assert (SO3 := own_sound _ _ _ O3).
      assert (G3 : goes h1 h3) by (eapply goes_trans; [eapply goes_clone; exact E2|eapply goes_delete; exact E3]).
      assert (M3 : shows h3 p s) by (eapply kept; [exact SO1|exact G3|exact O3|left; reflexivity|exact M1]).
      destruct (clone_shows _ _ _ _ _ SO3 M3 E4) as [G4 M4].
      assert (M4' : shows h4 p s) by (eapply shows_grows; [exact G4|exact M3]).
      destruct (clone_shows _ _ _ _ _ (proj2 (proj2 G4) SO3) M4' E5) as [G5 M5].
      assert (G : goes (w_heap w) h5) by (eapply goes_trans; [apply G1|]; eapply goes_trans; [exact G3|]; eapply goes_trans; [apply G4|apply G5]).
      assert (M5' : shows h5 b s) by (eapply shows_grows; [exact G5|exact M4]).
      (* what the driver had before *)
      assert (K1 : says_driver h1 d e) by (eapply says_driver_grow; [exact G1|repeat split; assumption]).
      assert (K3 : says_driver h3 d e) by (eapply driver_kept; [exact SO1|exact G3|exact O3| |exact K1]; intros y Y; right; apply in_or_app; left; exact Y).
      assert (K5 : says_driver h5 d e) by (eapply says_driver_grow; [|exact K3]; eapply grows_trans; eassumption).
      destruct K5 as (T1 & T2 & T3).
      eapply agrees_set_driver; [exact SO|exact G|exact R|exact H|exact I1|]. cbn [both]. split; [exact T1|]. split; cbn [o_tests v_tests o_queue v_queue].
      * apply says_assign; assumption.
      * apply says_queue_push; assumption.
  - (* AddKnown *) look_d w v i R d e H V K; [|injection E as <-; exact R]. destruct K as (S1 & S2 & S3). assert (F := says_find _ _ _ x S2).
    inversion S3 as [Q1 Q2|r vr q vq F1 F2 Q1 Q2]; [rewrite <- Q1 in E; injection E as <-; exact R|]. rewrite <- Q1 in E. rewrite Q1 in E. rewrite Q2.
    destruct (find x (o_tests d)) as [p|], (find x (v_tests e)) as [s|]; try contradiction; [|injection E as <-; exact R].
    apply bind_ok in E. destruct E as ([c h1] & E1 & E). injection E as <-. destruct (clone_shows _ _ _ _ _ SO F E1) as [G M].
    assert (K1 : says_driver h1 d e) by (eapply says_driver_grow; [exact G|repeat split; assumption]). destruct K1 as (T1 & T2 & T3).
    eapply agrees_set_driver; [exact SO|apply G|exact R|exact H|exact I1|]. cbn [both]. split; [exact T1|]. split; [exact T2|]. cbn [o_queue v_queue]. apply says_queue_push; assumption.
  - (* RunTests *) look_d w v i R d e H V K; [|injection E as <-; exact R]. destruct K as (S1 & S2 & S3). inversion S3 as [Q1 Q2|r vr q vq F1 F2 Q1 Q2]; [rewrite <- Q1 in E; discriminate|].
    rewrite <- Q1 in E. apply bind_ok in E. destruct E as (h1 & E1 & E). injection E as <-.
    eapply agrees_keep; [exact SO| |exact I1|].
    + cbn [with_driver w_heap]. eapply goes_each; [|exact E1]. intros a h h' X. cbv beta in X. apply bind_ok in X. destruct X as (h2 & X1 & X2). eapply goes_trans; [eapply goes_visit; exact X1|eapply goes_delete; exact X2].
    + eapply at_driver; [exact R|exact H|]. repeat split; assumption.
  - (* PopTrace *) look_d w v i R d e H V K; [|injection E as <-; exact R]. destruct K as (S1 & S2 & S3). inversion S3 as [Q1 Q2|r vr q vq F1 F2 Q1 Q2]; [rewrite <- Q1 in E; injection E as <-; exact R|].
    rewrite <- Q1 in E. apply bind_ok in E. destruct E as (h1 & E1 & E). injection E as <-.
    eapply agrees_keep; [exact SO|eapply goes_deletes; exact E1|exact I1|]. eapply at_driver; [exact R|exact H|]. repeat split; assumption.
  - (* GetMonitor *) look_d w v i R d e H V K; [|injection E as <-; exact R]. destruct K as (S1 & S2 & S3). apply bind_ok in E. destruct E as ([m h1] & E1 & E). injection E as <-.
    assert (F : says_monitor (w_heap w) (find x (o_formulas d)) (find x (v_formulas e))) by (exact (says_find _ _ _ x S1)).
    destruct (maybe_clone_says _ _ _ _ _ SO F E1) as [G M]. eapply agrees_add_monitor; [exact SO|exact G|exact R|exact I1|exact M].
  - (* NewMonitor *) injection E as <-. apply new_monitor; [exact R|exact Logic.I].
  - (* CopyMonitor *) look_m w v i R d e H V K; [|injection E as <-; exact R]. apply bind_ok in E. destruct E as ([m h1] & E1 & E). injection E as <-.
    destruct (maybe_clone_says _ _ _ _ _ SO K E1) as [G M]. eapply agrees_add_monitor; [exact SO|exact G|exact R|exact I1|exact M].
  - (* MoveMonitor *) look_m w v i R d e H V K; [|injection E as <-; exact R]. injection E as <-. apply new_monitor; [|exact K]. eapply at_monitor; [exact R|exact H|exact Logic.I].
  - (* AssignMonitor *) look_m w v i R d e H V K; [|injection E as <-; exact R]. look_m w v j R d' e' H' V' K'; [|injection E as <-; exact R].
    destruct (Nat.eqb_spec i j) as [->|NE]; [injection E as <-; exact R|]. apply bind_ok in E. destruct E as (h1 & E1 & E). apply bind_ok in E. destruct E as ([m h2] & E2 & E). injection E as <-.
    destruct (monitors_at _ _ _ _ _ _ I NE H H') as (r & O & _). destruct (own_delete _ _ _ _ O) as (h1' & E1' & O1). rewrite E1 in E1'. injection E1' as <-.
    assert (G1 : goes (w_heap w) h1) by (eapply goes_deletes; exact E1).
    assert (K1 : says_monitor h1 d' e') by (eapply monitor_kept; [exact SO|exact G1|exact O1| |exact K']; intros y Y; apply in_or_app; left; exact Y).
    destruct (maybe_clone_says _ _ _ _ _ (proj2 G1 SO) K1 E2) as [G M]. eapply agrees_set_monitor; [exact SO|eapply goes_trans; eassumption|exact R|exact H|exact I1|exact M].
  - (* MoveAssignMonitor *) look_m w v i R d e H V K; [|injection E as <-; exact R]. look_m w v j R d' e' H' V' K'; [|injection E as <-; exact R].
    destruct (Nat.eqb_spec i j) as [->|NE]; [injection E as <-; exact R|]. apply bind_ok in E. destruct E as (h1 & E1 & E). injection E as <-.
    eapply agrees_keep; [exact SO|eapply goes_deletes; exact E1|exact I1|]. eapply at_monitor; [eapply at_monitor; [exact R|exact H'|exact Logic.I]| |exact K'].
    cbn [with_monitor w_monitors]. rewrite the_set by exact NE. exact H.
  - (* DestroyMonitor *) look_m w v i R d e H V K; [|injection E as <-; exact R]. apply bind_ok in E. destruct E as (h1 & E1 & E). injection E as <-.
    eapply agrees_set_monitor; [exact SO|eapply goes_deletes; exact E1|exact R|exact H|exact I1|exact Logic.I].
  - (* UseMonitor *) destruct (the i (w_monitors w)) as [d|] eqn:H; [|injection E as <-; exact R]. apply bind_ok in E. destruct E as (h1 & E1 & E). injection E as <-.
    eapply agrees_same; [exact SO|eapply goes_each; [exact goes_visit|exact E1]|exact R|exact I1].
Qed.

Lemma run_agrees : forall os w v w' L, Inv w L -> along allowed os w -> agrees (w_heap w) w v -> run os w = Ok w' -> agrees (w_heap w') w' (vrun os v).
Proof.
  induction os as [|o os IH]; intros w v w' L I A R E; cbn [run vrun fold_left] in *; [injection E as <-; exact R|]. destruct A as [A AS]. apply bind_ok in E. destruct E as (w1 & E1 & E).
  destruct (step_good w o L I A) as (w1' & L1 & E1' & I1 & _). rewrite E1 in E1'. injection E1' as <-.
  eapply IH; [exact I1|exact (AS w1 E1)| |exact E]. exact (step_agrees w v o w1 L I A R E1).
Qed.
Theorem values : forall os w, along allowed os start -> run os start = Ok w -> agrees (w_heap w) w (vrun os vstart).
Proof.
  intros os w A E. eapply run_agrees; [exact start_inv|exact A| |exact E]. split; (split; [reflexivity|]); intro k; destruct k; exact I.
Qed.
Theorem plain_values : forall os, Forall plain os -> exists w, run os start = Ok w /\ agrees (w_heap w) w (vrun os vstart).
Proof.
  intros os P. destruct (never_dangling os P) as (w & E). exists w. split; [exact E|]. apply values; [|exact E]. apply plain_along; [exact P|exact start_quiet].
Qed.
