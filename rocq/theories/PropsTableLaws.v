(** Property C107: the laws of [+] and [-] on tables. *)
From Verif Require Import Base BaseFacts Corr Spec CorrFacts CorrProps TableLawSpec.
From Coq Require Import Permutation Lia Bool Arith.

Definition copies (l : list item) (it : item) : nat := count_occ item_eq_dec l it.
Definition present (env : nat -> list item) (it : item) (v : nat) : bool :=
  if in_dec item_eq_dec it (env v) then true else false.

Lemma value_In env e : forall o it, In it (value env e o) <-> holds (present env it) e = true.
Proof.
  induction e as [v|a IHa b IHb|a IHa b IHb]; intros o it; cbn [value holds].
  - unfold synth, present. destruct (in_dec item_eq_dec it (env v)); split; intros; try congruence; tauto.
  - rewrite corr_add_In, IHa, IHb, orb_true_iff. tauto.
  - rewrite corr_sub_In, IHa, IHb, andb_true_iff, negb_true_iff.
    destruct (holds (present env it) b); split; intros [H1 H2]; split; congruence.
Qed.

Lemma strict_copies l it : ordered item_lt l -> copies l it = if in_dec item_eq_dec it l then 1 else 0.
Proof.
  intros H. apply ordered_lt_NoDup in H. unfold copies. destruct (in_dec item_eq_dec it l) as [I|I].
  - apply (NoDup_count_occ' item_eq_dec); assumption.
  - apply count_occ_not_In. exact I.
Qed.

(** How often the result has an item. *)
Lemma value_copies env e : forall o it, copies (value env e o) it =
  if holds (present env it) e then match repeats e with Some v => copies (env v) it | None => 1 end else 0.
Proof.
  induction e as [v|a IHa b IHb|a IHa b IHb]; intros o it; cbn [repeats].
  - cbn [value holds]. unfold synth, present, copies. destruct (in_dec item_eq_dec it (env v)) as [I|I]; [reflexivity|].
    apply count_occ_not_In. exact I.
  - cbn [value]. rewrite strict_copies by apply corr_add_strict.
    pose proof (value_In env (Plus a b) o it) as V. cbn [value] in V.
    destruct (in_dec item_eq_dec it _) as [I|I]; destruct (holds (present env it) (Plus a b)); try reflexivity.
    + apply V in I. discriminate.
    + exfalso. apply I, V. reflexivity.
  - cbn [value holds]. unfold copies. rewrite (proj2 (C34_lemma o (value env a) (value env b)) it).
    fold (copies (value env a (sub o 0)) it). rewrite IHa.
    pose proof (value_In env b (sub o 1) it) as V.
    destruct (in_dec item_eq_dec it (value env b (sub o 1))) as [I|I].
    + apply V in I. rewrite I, andb_false_r. reflexivity.
    + destruct (holds (present env it) b); [exfalso; apply I, V; reflexivity|]. rewrite andb_true_r. reflexivity.
Qed.

Definition composite (e : expr) : Prop := match e with Tab _ => False | _ => True end.
Lemma value_ordered env e o : composite e -> ordered item_le (value env e o).
Proof.
  destruct e; cbn [composite value]; intros H; [contradiction| |].
  - apply ordered_lt_le, corr_add_strict.
  - apply corr_sub_ordered.
Qed.

Lemma copies_eq l l' : ordered item_le l -> ordered item_le l' -> (forall it, copies l it = copies l' it) -> l = l'.
Proof.
  intros H H' C. apply ordered_perm_eq; trivial. apply (Permutation_count_occ item_eq_dec). exact C.
Qed.

Lemma holds_ext b b' e : (forall v, In v (names e) -> b v = b' v) -> holds b e = holds b' e.
Proof.
  induction e as [v|x IHx y IHy|x IHx y IHy]; cbn [names holds]; intros H.
  - apply H. left. reflexivity.
  - rewrite IHx, IHy; trivial; intros v I; apply H, in_or_app; tauto.
  - rewrite IHx, IHy; trivial; intros v I; apply H, in_or_app; tauto.
Qed.

Lemma repeats_holds b e v : repeats e = Some v -> holds b e = true -> b v = true.
Proof.
  induction e as [w|x IHx y IHy|x IHx y IHy]; cbn [repeats holds]; intros R H.
  - congruence.
  - discriminate.
  - apply andb_true_iff in H. apply IHx; tauto.
Qed.

Definition low := Item [97%N] [65%N].
Definition high := Item [98%N] [66%N].
Lemma low_high : item_lt low high. Proof. apply item_cmp_Lt. vm_compute. reflexivity. Qed.
(** Tables in which [low] is repeated [n v] times if chosen. *)
Definition world (b : nat -> bool) (n : nat -> nat) (v : nat) : list item := if b v then repeat low (S (n v)) else [].
Lemma world_present b n : forall v, present (world b n) low v = b v.
Proof.
  intros v. unfold present, world. destruct (b v).
  - cbn [repeat]. destruct (in_dec item_eq_dec low _) as [I|I]; [reflexivity|]. exfalso. apply I. left. reflexivity.
  - reflexivity.
Qed.
Lemma copies_repeat n : copies (repeat low n) low = n.
Proof.
  unfold copies. induction n as [|n IH]; [reflexivity|]. cbn [repeat count_occ].
  destruct (item_eq_dec low low); [rewrite IH; reflexivity|congruence].
Qed.

Lemma law_sound e f : same_law e f -> forall env o o', value env e o = value env f o'.
Proof.
  intros L env o o'.
  assert (G : composite e -> composite f -> (forall b, holds b e = holds b f) /\ (repeats e = repeats f \/ forall b, holds b e = false) ->
              value env e o = value env f o').
  { intros C C' [H R]. apply copies_eq; try (apply value_ordered; assumption).
    intros it. rewrite !value_copies, <- H. destruct R as [->|R]; [reflexivity|]. rewrite R. reflexivity. }
  destruct e, f; cbn [same_law] in L; try contradiction; try (apply G; cbn [composite]; trivial; fail).
  subst. reflexivity.
Qed.

Lemma swapped_not_ordered : ~ ordered item_le [high; low].
Proof.
  cbn [ordered]. intros [F _]. inversion F as [|? ? [E|L] ?]; subst; [discriminate|].
  apply (item_lt_irrefl low). eapply item_lt_trans; [exact low_high|exact L].
Qed.

Lemma law_complete e f : (forall env, value env e (fun _ => []) = value env f (fun _ => [])) -> same_law e f.
Proof.
  intros A.
  assert (H : forall b, holds b e = holds b f).
  { intros b. pose proof (value_In (world b (fun _ => 0)) e (fun _ => []) low) as V1.
    pose proof (value_In (world b (fun _ => 0)) f (fun _ => []) low) as V2.
    rewrite (holds_ext _ b) in V1 by (intros; apply world_present).
    rewrite (holds_ext _ b) in V2 by (intros; apply world_present).
    rewrite A in V1. destruct (holds b e), (holds b f); trivial.
    - symmetry. apply V2, V1. reflexivity.
    - apply V1, V2. reflexivity. }
  assert (C : forall b n, holds b e = true ->
     match repeats e with Some v => copies (world b n v) low | None => 1 end =
     match repeats f with Some v => copies (world b n v) low | None => 1 end).
  { intros b n T. pose proof (value_copies (world b n) e (fun _ => []) low) as V1.
    pose proof (value_copies (world b n) f (fun _ => []) low) as V2.
    rewrite (holds_ext _ b) in V1 by (intros; apply world_present).
    rewrite (holds_ext _ b) in V2 by (intros; apply world_present).
    rewrite <- H in V2. rewrite T in V1, V2. rewrite A in V1. congruence. }
  assert (G : (forall b, holds b e = holds b f) /\ (repeats e = repeats f \/ forall b, holds b e = false)).
  { split; [exact H|]. destruct (repeats e) as [v|] eqn:E, (repeats f) as [w|] eqn:F.
    - destruct (Nat.eq_dec v w) as [->|N]; [left; reflexivity|]. right. intros b. destruct (holds b e) eqn:T; [|reflexivity].
      specialize (C b (fun x => if Nat.eqb x v then 1 else 2) T). unfold world in C.
      rewrite (repeats_holds b e v E T) in C. rewrite H in T. rewrite (repeats_holds b f w F T) in C.
      rewrite !copies_repeat, Nat.eqb_refl in C. destruct (Nat.eqb_spec w v); congruence.
    - right. intros b. destruct (holds b e) eqn:T; [|reflexivity].
      specialize (C b (fun x => 1) T). unfold world in C. rewrite (repeats_holds b e v E T), copies_repeat in C. discriminate.
    - right. intros b. destruct (holds b e) eqn:T; [|reflexivity].
      specialize (C b (fun x => 1) T). unfold world in C. rewrite H in T. rewrite (repeats_holds b f w F T), copies_repeat in C. discriminate.
    - left. reflexivity. }
  assert (S : forall x : expr, composite x -> ordered item_le (value (fun _ => [high; low]) x (fun _ => []))).
  { intros x X. apply value_ordered. exact X. }
  assert (U : forall v, ~ ordered item_le (value (fun _ => [high; low]) (Tab v) (fun _ => []))).
  { intros v. exact swapped_not_ordered. }
  destruct e as [v| |], f as [w| |]; cbn [same_law]; try exact G.
  - destruct (Nat.eq_dec v w) as [E|N]; [exact E|]. exfalso.
    specialize (H (Nat.eqb v)). cbn [holds] in H. rewrite Nat.eqb_refl in H. symmetry in H. apply Nat.eqb_eq in H. congruence.
  - apply (U v). rewrite A. apply S. exact I.
  - apply (U v). rewrite A. apply S. exact I.
  - apply (U w). rewrite <- A. apply S. exact I.
  - apply (U w). rewrite <- A. apply S. exact I.
Qed.

(** C107: two expressions in [+] and [-] give the same table whatever tables they name, and whatever the hash
    orders, exactly when [same_law] relates them. *)
Theorem C107_laws : forall e f,
  (forall env o o', value env e o = value env f o') <-> same_law e f.
Proof.
  intros e f. split.
  - intros H. apply law_complete. intros env. apply H.
  - apply law_sound.
Qed.
Print Assumptions C107_laws.

(** An item is in the value of an expression if the expression says so, and how often. *)
Theorem C107_value : forall env e o it,
  (In it (value env e o) <-> holds (present env it) e = true) /\
  count_occ item_eq_dec (value env e o) it =
    (if holds (present env it) e then match repeats e with Some v => count_occ item_eq_dec (env v) it | None => 1 end else 0) /\
  (composite e -> ordered item_le (value env e o)).
Proof. intros. split; [apply value_In|]. split; [apply value_copies|]. apply value_ordered. Qed.
Print Assumptions C107_value.

Lemma choices_in l : forall b, exists b', In b' (choices l) /\ forall v, In v l -> b' v = b v.
Proof.
  induction l as [|v l IH]; intros b; cbn [choices].
  - exists (fun _ => false). split; [left; reflexivity|]. intros v [].
  - destruct (IH b) as [b' [I' E]]. exists (fun w => if Nat.eqb w v then b v else b' w). split.
    + apply in_flat_map. exists b'. split; [exact I'|].
      apply (in_map (fun (x : bool) w => if Nat.eqb w v then x else b' w)). destruct (b v); cbn; tauto.
    + intros w W. destruct (Nat.eqb_spec w v) as [->|N]; [reflexivity|]. destruct W as [W|W]; [congruence|]. apply E. exact W.
Qed.

Lemma opt_eqb_eq a b : opt_eqb a b = true <-> a = b.
Proof.
  destruct a, b; cbn [opt_eqb]; try rewrite Nat.eqb_eq; split; intros H; try congruence; try discriminate.
Qed.

(** Whether two expressions are always the same table is decided by the test [same_law_b]. *)
Theorem C107_decided : forall e f,
  same_law_b e f = true <-> (forall env o o', value env e o = value env f o').
Proof.
  intros e f. rewrite C107_laws.
  set (l := choices (names e ++ names f)).
  assert (G : (forallb (fun b => Bool.eqb (holds b e) (holds b f)) l &&
      (opt_eqb (repeats e) (repeats f) || forallb (fun b => negb (holds b e)) l) = true) <->
      ((forall b, holds b e = holds b f) /\ (repeats e = repeats f \/ forall b, holds b e = false))).
  { rewrite andb_true_iff, orb_true_iff, opt_eqb_eq, !forallb_forall.
    assert (K : forall b, exists b', In b' l /\ holds b' e = holds b e /\ holds b' f = holds b f).
    { intros b. destruct (choices_in (names e ++ names f) b) as [b' [I E]]. exists b'. split; [exact I|].
      split; apply holds_ext; intros v V; apply E, in_or_app; tauto. }
    assert (Q1 : (forall b, In b l -> Bool.eqb (holds b e) (holds b f) = true) <-> forall b, holds b e = holds b f).
    { split; intros H b.
      - destruct (K b) as [b' [I [<- <-]]]. apply Bool.eqb_prop, H, I.
      - intros _. rewrite H. apply Bool.eqb_reflx. }
    assert (Q2 : (forall b, In b l -> negb (holds b e) = true) <-> forall b, holds b e = false).
    { split; intros H b.
      - destruct (K b) as [b' [I [<- _]]]. apply negb_true_iff, H, I.
      - intros _. rewrite H. reflexivity. }
    rewrite Q1, Q2. reflexivity. }
  destruct e, f; cbn [same_law_b same_law]; try exact G; try (split; [discriminate|contradiction]).
  apply Nat.eqb_eq.
Qed.
Print Assumptions C107_decided.

Local Notation A := (Tab 0).
Local Notation B := (Tab 1).
Local Notation C := (Tab 2).
(** Laws that hold. *)
Example C107_holds_case :
  forallb (fun p => same_law_b (fst p) (snd p))
    [ (Plus A B, Plus B A); (Plus (Plus A B) C, Plus A (Plus B C)); (Minus (Minus A B) C, Minus A (Plus B C));
      (Minus (Minus A B) C, Minus (Minus A C) B); (Minus (Plus A B) C, Plus (Minus A C) (Minus B C));
      (Plus (Minus A B) B, Plus A B); (Minus A A, Minus B B); (Minus A (Minus A A), Minus A (Minus B B));
      (Plus A (Minus A B), Plus A A) ] = true.
Proof. vm_compute. reflexivity. Qed.
(** Laws one would expect of sets that do not hold of tables. *)
Example C107_fails_case :
  existsb (fun p => same_law_b (fst p) (snd p))
    [ (Plus A A, A); (Minus A (Minus A A), A); (Minus (Plus A B) B, Minus A B); (Minus A B, Minus B A);
      (Minus A (Minus A B), Minus B (Minus B A)); (Minus A (Minus A A), Plus A A); (Minus A (Minus B C), Plus (Minus A B) C) ] = false.
Proof. vm_compute. reflexivity. Qed.
