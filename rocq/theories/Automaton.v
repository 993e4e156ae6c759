(** The grammar of src/stl_parser.ypp and the facts about the generated tables that the
    proofs about the parser use, each established by computation on the tables. *)
From Coq Require Import List Bool String Ascii ZArith Lia.
From Verif Require Import Num Base Signal Robust Transducer Driver Tables Parser.
Import ListNotations.
Local Open Scope Z_scope.

(** The rules of stl_parser.ypp:151-524 as (number, (left-hand side, right-hand side)), with the
    symbol numbers of stl_parser.cpp:1666-1684. *)
Definition grammar : list (Z * (Z * list Z)) :=
  [(1, (41, [69; 0]));
   (2, (42, [30])); (3, (42, [31])); (4, (43, [30])); (5, (43, [31])); (6, (44, [34; 3; 16; 4]));
   (7, (45, [44])); (8, (45, [43])); (9, (45, [5; 49; 6])); (10, (46, [45])); (11, (46, [23; 5; 49; 6]));
   (12, (47, [46])); (13, (47, [48; 22; 45])); (14, (48, [47])); (15, (48, [48; 20; 45]));
   (16, (48, [48; 21; 45])); (17, (49, [48])); (18, (50, [49; 51; 49])); (19, (51, [7])); (20, (51, [9]));
   (21, (52, [3; 42; 17; 42; 4])); (22, (52, [3; 42; 42; 4])); (23, (53, [50])); (24, (53, [8; 53]));
   (25, (53, [53; 10; 53])); (26, (53, [53; 11; 53])); (27, (53, [53; 12; 53])); (28, (53, [14; 52; 53]));
   (29, (53, [13; 52; 53])); (30, (53, [53; 15; 52; 53])); (31, (53, [5; 53; 6])); (32, (53, [32]));
   (33, (54, [33; 19; 53])); (34, (55, [26; 33; 37; 36])); (35, (55, [26; 33; 37; 36; 17; 30; 17; 56]));
   (36, (56, [27])); (37, (56, [28])); (38, (57, [31; 38; 30])); (39, (57, [33; 38; 30])); (40, (58, [57]));
   (41, (58, [58; 17; 57])); (42, (59, [24; 58])); (43, (60, [31; 38; 30])); (44, (60, [33; 38; 30]));
   (45, (61, [60])); (46, (61, [61; 17; 60])); (47, (62, [])); (48, (62, [5; 61; 6])); (49, (63, [33]));
   (50, (63, [34])); (51, (64, [63])); (52, (64, [64; 17; 63])); (53, (65, [25; 64]));
   (54, (66, [33; 62; 39; 53; 17; 36; 17; 36; 17; 56; 40])); (55, (66, [35; 62])); (56, (67, [67; 66]));
   (57, (67, [66])); (58, (68, [55; 39; 67; 40])); (59, (69, [54])); (60, (69, [68])); (61, (69, [59]));
   (62, (69, [65])); (63, (69, [69; 54])); (64, (69, [69; 68])); (65, (69, [69; 59]))].

Fixpoint upto (n : nat) : list Z := match n with O => [] | S k => upto k ++ [Z.of_nat k] end.
Definition states : list Z := upto 134.
Definition tokens : list Z := upto 41.

Definition stos (s : Z) : Z := nth (Z.to_nat s) yystos (-1).
Definition rule (r : Z) : option (Z * list Z) :=
  match List.find (fun p => fst p =? r) grammar with Some p => Some (snd p) | None => None end.

(** What a state can do. *)
Definition acts (s : Z) : list action :=
  if s =? yyfinal then []
  else match blind s with
       | Ok true => match yydefault s with Ok a => [a] | _ => [] end
       | Ok false => flat_map (fun t => match decide s t with Ok a => [a] | _ => [] end) tokens
       | _ => []
       end.
Definition total_state (s : Z) : bool :=
  match blind s with
  | Ok true => match yydefault s with Ok _ => true | _ => false end
  | Ok false => forallb (fun t => match decide s t with Ok _ => true | _ => false end) tokens
  | _ => false
  end.

Definition edge : Type := (Z * Z)%type.
Definition edge_eqb (a b : edge) : bool := (fst a =? fst b) && (snd a =? snd b).
Definition mem_edge (a : edge) (E : list edge) : bool := existsb (edge_eqb a) E.
Definition preds (E : list edge) (s : Z) : list Z := map fst (filter (fun e => snd e =? s) E).

(** Transitions over tokens. *)
Definition shift_edges : list edge :=
  flat_map (fun s => flat_map (fun a => match a with Shift s' => [(s, s')] | _ => [] end) (acts s)) states.

(** The states below a right-hand side (given reversed) that ends in [s]. *)
Fixpoint bases (E : list edge) (syms : list Z) (s : Z) : list Z :=
  match syms with
  | [] => [s]
  | _ :: syms' => flat_map (bases E syms') (preds E s)
  end.
Definition goto_edges (E : list edge) : list edge :=
  flat_map (fun s => flat_map (fun a => match a with
    | Reduce r => match rule r with
        | Some (lhs, rhs) =>
            flat_map (fun b => match lr_goto b lhs with Ok s' => [(b, s')] | _ => [] end) (bases E (rev rhs) s)
        | None => [] end
    | _ => [] end) (acts s)) states.
Fixpoint add_edges (l E : list edge) : list edge :=
  match l with [] => E | e :: l' => if mem_edge e E then add_edges l' E else add_edges l' (e :: E) end.
Fixpoint saturate (n : nat) (E : list edge) : list edge :=
  match n with O => E | S k => saturate k (add_edges (goto_edges E) E) end.

(** The transitions of the automaton. *)
Definition edges : list edge := Eval vm_compute in saturate 12 (add_edges shift_edges []).

(** Along every path into a state that reduces by [r], the right-hand side of [r] is on top,
    and the state below it has a transition on the left-hand side. *)
Fixpoint spells (E : list edge) (syms : list Z) (lhs s : Z) : bool :=
  match syms with
  | [] => match lr_goto s lhs with Ok s' => mem_edge (s, s') E && (stos s' =? lhs) | _ => false end
  | x :: syms' => (stos s =? x) && negb (s =? 0) && forallb (spells E syms' lhs) (preds E s)
  end.
Definition reduces_well (s : Z) : bool :=
  forallb (fun a => match a with
    | Reduce r => match rule r with
        | Some (lhs, rhs) =>
            negb (r =? 1) && spells edges (rev rhs) lhs s &&
            match tab yyr1 r with Ok x => x =? lhs | _ => false end &&
            match tab yyr2 r with Ok x => x =? Z.of_nat (List.length rhs) | _ => false end
        | None => false end
    | Shift s' => mem_edge (s, s') edges
    | Error => true end) (acts s).

(** ** Facts established by computation *)
Lemma all_reduce_well : forallb reduces_well states = true.
Proof. vm_compute. reflexivity. Qed.
Lemma all_total : forallb total_state states = true.
Proof. vm_compute. reflexivity. Qed.
(** Transitions lead to states other than the first. *)
Lemma edges_states : forallb (fun e => existsb (Z.eqb (fst e)) states && existsb (Z.eqb (snd e)) states && negb (snd e =? 0)) edges = true.
Proof. vm_compute. reflexivity. Qed.
(** A transition over a token leads to a state for that token; over the end of the input, to
    the final state; no state shifts the error token. *)
Lemma shifts_well : forallb (fun s => (s =? yyfinal) || forallb (fun t => match decide s t with
    | Ok (Shift s') => (stos s' =? t) && (negb (t =? 0) || (s' =? yyfinal)) && negb (t =? 1)
    | _ => true end) tokens) states = true.
Proof. vm_compute. reflexivity. Qed.
(** State 15, after the name of a new signal, is only entered by a token, from a state
    that is itself entered by a token. *)
Lemma into_15 : forallb (fun e => negb (snd e =? 15) || (stos (fst e) <? 41)) edges = true.
Proof. vm_compute. reflexivity. Qed.
(** Only state 15 reduces by the rule that declares a new signal. *)
Lemma rule_49_in_15 : forallb (fun s => forallb (fun a => match a with Reduce r => negb (r =? 49) || (s =? 15) | _ => true end) (acts s)) states = true.
Proof. vm_compute. reflexivity. Qed.

Lemma upto_in : forall n x, In x (upto n) <-> 0 <= x < Z.of_nat n.
Proof.
  induction n; intro x; cbn [upto].
  - split; [intros []|lia].
  - rewrite in_app_iff, IHn. cbn [In]. lia.
Qed.
Lemma existsb_Z : forall x l, existsb (Z.eqb x) l = true <-> In x l.
Proof.
  intros. rewrite existsb_exists. split.
  - intros (y & H & E). apply Z.eqb_eq in E. subst. auto.
  - intro H. exists x. rewrite Z.eqb_refl. auto.
Qed.
Lemma mem_edge_in : forall e E, mem_edge e E = true <-> In e E.
Proof.
  intros. unfold mem_edge. rewrite existsb_exists. split.
  - intros (y & H & Q). unfold edge_eqb in Q. apply andb_prop in Q. destruct Q as [A B].
    apply Z.eqb_eq in A, B. destruct e, y; cbn in *; subst. auto.
  - intro H. exists e. split; auto. unfold edge_eqb. rewrite !Z.eqb_refl. auto.
Qed.
Lemma in_preds : forall E s p, In (p, s) E -> In p (preds E s).
Proof.
  intros. unfold preds. apply in_map_iff. exists (p, s). split; auto.
  apply filter_In. split; auto. cbn. apply Z.eqb_refl.
Qed.

Lemma edge_target : forall s s', In (s, s') edges -> In s states /\ In s' states /\ s' <> 0.
Proof.
  intros s s' H. assert (F := edges_states). rewrite forallb_forall in F. apply F in H. cbn [fst snd] in H.
  apply andb_prop in H. destruct H as [H C]. apply andb_prop in H. destruct H as [A B].
  apply existsb_Z in A, B. apply negb_true_iff, Z.eqb_neq in C. auto.
Qed.

Lemma acts_shift : forall s s', In s states -> In (Shift s') (acts s) -> In (s, s') edges.
Proof.
  intros s s' S H. assert (F := all_reduce_well). rewrite forallb_forall in F. apply F in S.
  unfold reduces_well in S. rewrite forallb_forall in S. apply S in H. apply mem_edge_in. auto.
Qed.
Lemma acts_reduce : forall s r, In s states -> In (Reduce r) (acts s) ->
  exists lhs rhs, rule r = Some (lhs, rhs) /\ r <> 1 /\ spells edges (rev rhs) lhs s = true /\
    tab yyr1 r = Ok lhs /\ tab yyr2 r = Ok (Z.of_nat (List.length rhs)).
Proof.
  intros s r S H. assert (F := all_reduce_well). rewrite forallb_forall in F. apply F in S.
  unfold reduces_well in S. rewrite forallb_forall in S. apply S in H.
  destruct (rule r) as [[lhs rhs]|]; [|discriminate].
  exists lhs, rhs. apply andb_prop in H. destruct H as [H C]. apply andb_prop in H. destruct H as [H B].
  apply andb_prop in H. destruct H as [H A].
  destruct (tab yyr1 r); try discriminate. destruct (tab yyr2 r); try discriminate.
  apply Z.eqb_eq in B, C. apply negb_true_iff, Z.eqb_neq in H. subst. auto.
Qed.

(** What [decide] can answer is among [acts]. *)
Lemma decide_acts : forall s t a, s <> yyfinal -> blind s = Ok false -> 0 <= t < 41 -> decide s t = Ok a -> In a (acts s).
Proof.
  intros s t a F B T D. unfold acts. apply Z.eqb_neq in F. rewrite F, B.
  apply in_flat_map. exists t. split; [apply upto_in; exact T|]. rewrite D. left. auto.
Qed.
Lemma default_acts : forall s a, s <> yyfinal -> blind s = Ok true -> yydefault s = Ok a -> In a (acts s).
Proof. intros s a F B D. unfold acts. apply Z.eqb_neq in F. rewrite F, B, D. left. auto. Qed.
Lemma state_total : forall s, In s states ->
  (blind s = Ok true /\ exists a, yydefault s = Ok a) \/
  (blind s = Ok false /\ forall t, 0 <= t < 41 -> exists a, decide s t = Ok a).
Proof.
  intros s S. assert (F := all_total). rewrite forallb_forall in F. apply F in S. unfold total_state in S.
  destruct (blind s) as [[]| | | |]; try discriminate.
  - left. split; auto. destruct (yydefault s); try discriminate. eauto.
  - right. split; auto. intros t T. rewrite forallb_forall in S. specialize (S t (proj2 (upto_in 41 t) T)).
    destruct (decide s t); try discriminate. eauto.
Qed.
Lemma shift_state : forall s t s', In s states -> s <> yyfinal -> 0 <= t < 41 -> decide s t = Ok (Shift s') ->
  stos s' = t /\ (t = 0 -> s' = yyfinal).
Proof.
  intros s t s' S F T D. assert (G := shifts_well). rewrite forallb_forall in G. apply G in S.
  apply Z.eqb_neq in F. rewrite F in S. cbn [orb] in S. rewrite forallb_forall in S.
  specialize (S t (proj2 (upto_in 41 t) T)). rewrite D in S.
  apply andb_prop in S. destruct S as [S _]. apply andb_prop in S. destruct S as [A B].
  apply Z.eqb_eq in A. split; auto. intros ->. cbn in B. apply Z.eqb_eq in B. auto.
Qed.
Lemma pred_15 : forall s, In (s, 15) edges -> stos s < 41.
Proof.
  intros s H. assert (F := into_15). rewrite forallb_forall in F. apply F in H. cbn in H. apply Z.ltb_lt. auto.
Qed.
Lemma reduce_49 : forall s, In s states -> In (Reduce 49) (acts s) -> s = 15.
Proof.
  intros s S H. assert (F := rule_49_in_15). rewrite forallb_forall in F. apply F in S.
  rewrite forallb_forall in S. apply S in H. cbn in H. apply Z.eqb_eq. auto.
Qed.
