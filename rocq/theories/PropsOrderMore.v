(** C110, continued: as many results as orders. *)
From Coq Require Import Factorial Permutation Lia.
From Verif Require Import Base BaseFacts StrOps Ligature ModifierKind ChanomaModel Spec LigFacts PropsPipeline PropsLig OrderSpec PropsOrderShows.
Local Arguments N.eqb !_ !_ : simpl nomatch.

(** ** Permutations without repetition *)
Lemma nodup_apart_app {A} (a b : list A) : NoDup a -> NoDup b -> (forall x, In x a -> ~ In x b) -> NoDup (a ++ b).
Proof.
  induction 1 as [|x a N H IH]; intros B D; cbn [app]; [exact B|]. constructor.
  - intros I. apply in_app_or in I as [I|I]; [exact (N I)|exact (D x (or_introl eq_refl) I)].
  - apply IH; [exact B|]. intros y I. apply D. right. exact I.
Qed.
Lemma nodup_map_on {A B} (f : A -> B) l : NoDup l -> (forall x y, In x l -> In y l -> f x = f y -> x = y) -> NoDup (map f l).
Proof.
  induction 1 as [|x l N H IH]; intros J; cbn [map]; constructor.
  - intros I. apply in_map_iff in I as (y & E & I). apply N. rewrite (J x y (or_introl eq_refl) (or_intror I) (eq_sym E)). exact I.
  - apply IH. intros y z Y Z. apply J; right; assumption.
Qed.
Lemma inserts_nodup {A} (x : A) l : ~ In x l -> NoDup (inserts x l).
Proof.
  induction l as [|y l IH]; intros N; cbn [inserts]; [constructor; [intros []|constructor]|]. constructor.
  - intros I. apply in_map_iff in I as (p & E & _). injection E as -> _. apply N. left. reflexivity.
  - apply nodup_map_on; [apply IH; intros I; apply N; right; exact I|]. intros a b _ _ E. injection E as ->. reflexivity.
Qed.
Lemma split_unique {A} (x : A) a b a' b' : ~ In x a -> ~ In x a' -> a ++ x :: b = a' ++ x :: b' -> a = a' /\ b = b'.
Proof.
  revert a'. induction a as [|y a IH]; intros [|z a'] N N' E; cbn in E.
  - injection E as E. auto.
  - injection E as E1 E2. destruct N'. left. auto.
  - injection E as E1 E2. destruct N. left. auto.
  - injection E as E1 E2. subst z. destruct (IH a' (fun I => N (or_intror I)) (fun I => N' (or_intror I)) E2) as [-> ->]. auto.
Qed.
Lemma perms_nodup {A} (l : list A) : NoDup l -> NoDup (perms l).
Proof.
  induction 1 as [|x l N H IH]; cbn [perms]; [constructor; [intros []|constructor]|].
  assert (K : forall p, In p (perms l) -> ~ In x p) by (intros p I J; apply perms_in in I; apply N; exact (Permutation_in _ (Permutation_sym I) J)).
  induction IH as [|p ps Np IH IHp]; cbn [flat_map]; [constructor|]. apply nodup_apart_app.
  - apply inserts_nodup, K. left. reflexivity.
  - apply IHp. intros q I. apply K. right. exact I.
  - intros q I J. apply in_flat_map in J as (p' & P' & J). apply inserts_in in I as (a & b & -> & ->). apply inserts_in in J as (a' & b' & -> & E).
    assert (Ka := K _ (or_introl eq_refl)). assert (Kb := K _ (or_intror P')).
    destruct (split_unique x a b a' b') as [-> ->]; [intros Z; apply Ka, in_or_app; auto|intros Z; apply Kb, in_or_app; auto|exact E|]. exact (Np P').
Qed.

(** ** A map all of whose orders show *)
(** The keys begin and end alike, so two of them can share a character; whichever comes first takes it. *)
Definition mid_of (i : nat) : char := N.of_nat (2 + 2 * i).
Definition val_of (i : nat) : char := N.of_nat (3 + 2 * i).
Definition entry_of (i : nat) : str * str := ([0%N; mid_of i; 0%N], [val_of i]).
Inductive state := Both | First | Second.
Definition shown (p : nat * nat) (s : state) : str :=
  match s with
  | Both => [0%N; mid_of (fst p); 0%N; mid_of (snd p); 0%N; 1%N]
  | First => [val_of (fst p); mid_of (snd p); 0%N; 1%N]
  | Second => [0%N; mid_of (fst p); val_of (snd p); 1%N]
  end.
Definition next (p : nat * nat) (s : state) (k : nat) : state :=
  match s with Both => if Nat.eqb k (fst p) then First else if Nat.eqb k (snd p) then Second else Both | _ => s end.
Lemma mid_eqb i j : N.eqb (mid_of i) (mid_of j) = Nat.eqb i j.
Proof. unfold mid_of. destruct (Nat.eqb_spec i j) as [->|N]; [apply N.eqb_refl|]. apply N.eqb_neq. lia. Qed.
Lemma mid_val i j : N.eqb (mid_of i) (val_of j) = false. Proof. unfold mid_of, val_of. apply N.eqb_neq. lia. Qed.
Lemma mid_0 i : N.eqb (mid_of i) 0 = false. Proof. unfold mid_of. apply N.eqb_neq. lia. Qed.
Lemma mid_1 i : N.eqb (mid_of i) 1 = false. Proof. unfold mid_of. apply N.eqb_neq. lia. Qed.
Lemma zero_mid i : N.eqb 0 (mid_of i) = false. Proof. unfold mid_of. apply N.eqb_neq. lia. Qed.
Lemma zero_val i : N.eqb 0 (val_of i) = false. Proof. unfold val_of. apply N.eqb_neq. lia. Qed.
Lemma zero_one : N.eqb 0 1 = false. Proof. reflexivity. Qed.
Opaque mid_of val_of.
Lemma replace_shown k p s r : replace (fst (entry_of k)) (snd (entry_of k)) (shown p s ++ r) = shown p (next p s k) ++ replace (fst (entry_of k)) (snd (entry_of k)) r.
Proof.
  destruct p as [i j]. unfold replace, entry_of. cbn [fst snd]. destruct s; cbn [shown next app fst snd].
  - destruct (Nat.eqb k i) eqn:Ei; [apply Nat.eqb_eq in Ei; subst k|destruct (Nat.eqb k j) eqn:Ej; [apply Nat.eqb_eq in Ej; subst k|]].
    + repeat (progress (cbn [replace_scan starts_with List.length Nat.sub Nat.pred app andb]; rewrite ?mid_eqb, ?mid_val, ?mid_0, ?mid_1, ?zero_mid, ?zero_val, ?zero_one, ?N.eqb_refl, ?Nat.eqb_refl)). reflexivity.
    + repeat (progress (cbn [replace_scan starts_with List.length Nat.sub Nat.pred app andb]; rewrite ?mid_eqb, ?mid_val, ?mid_0, ?mid_1, ?zero_mid, ?zero_val, ?zero_one, ?N.eqb_refl, ?Nat.eqb_refl, ?Ei)). reflexivity.
    + repeat (progress (cbn [replace_scan starts_with List.length Nat.sub Nat.pred app andb]; rewrite ?mid_eqb, ?mid_val, ?mid_0, ?mid_1, ?zero_mid, ?zero_val, ?zero_one, ?N.eqb_refl, ?Nat.eqb_refl, ?Ei, ?Ej)). reflexivity.
  - repeat (progress (cbn [replace_scan starts_with List.length Nat.sub Nat.pred app andb]; rewrite ?mid_eqb, ?mid_val, ?mid_0, ?mid_1, ?zero_mid, ?zero_val, ?zero_one, ?N.eqb_refl, ?Nat.eqb_refl)). reflexivity.
  - repeat (progress (cbn [replace_scan starts_with List.length Nat.sub Nat.pred app andb]; rewrite ?mid_eqb, ?mid_val, ?mid_0, ?mid_1, ?zero_mid, ?zero_val, ?zero_one, ?N.eqb_refl, ?Nat.eqb_refl)). destruct (Nat.eqb k i); reflexivity.
Qed.

Definition final (q : list nat) (p : nat * nat) (s : state) : state := fold_left (next p) q s.
Definition laid (ps : list (nat * nat)) (f : nat * nat -> state) : str := flat_map (fun p => shown p (f p)) ps.
Lemma replace_laid k ps f : replace (fst (entry_of k)) (snd (entry_of k)) (laid ps f) = laid ps (fun p => next p (f p) k).
Proof. unfold laid. induction ps as [|p ps IH]; cbn [flat_map]; [reflexivity|]. rewrite replace_shown, IH. reflexivity. Qed.
Lemma pass_laid q ps : forall f, pass (map entry_of q) (laid ps f) = laid ps (fun p => final q p (f p)).
Proof.
  unfold pass. induction q as [|k q IH]; intros f; cbn [map fold_left]; [reflexivity|]. rewrite replace_laid, IH. reflexivity.
Qed.
Lemma shown_inj p s s' r r' : shown p s ++ r = shown p s' ++ r' -> s = s' /\ r = r'.
Proof.
  assert (Z : forall i, val_of i <> 0%N) by (intros i E; pose proof (zero_val i) as Q; rewrite E in Q; discriminate Q).
  destruct s, s'; cbn [shown app]; intros E; injection E; intros; subst; auto; exfalso;
    first [eapply Z; eassumption|eapply Z; symmetry; eassumption].
Qed.
Lemma laid_inj ps f g : laid ps f = laid ps g -> forall p, In p ps -> f p = g p.
Proof.
  unfold laid. induction ps as [|p ps IH]; cbn [flat_map]; intros E q I; [destruct I|]. apply shown_inj in E as [E1 E2].
  destruct I as [<-|I]; [exact E1|exact (IH E2 q I)].
Qed.
Lemma final_stays q p : final q p First = First /\ final q p Second = Second.
Proof. induction q as [|k q IH]; cbn [final fold_left next]; [auto|]. exact IH. Qed.
Lemma final_orders q q' : NoDup q -> NoDup q' -> Permutation q q' -> (forall i j, In i q -> In j q -> final q (i, j) Both = final q' (i, j) Both) -> q = q'.
Proof.
  revert q'. induction q as [|a q IH]; intros [|b q'] N N' P H; [reflexivity|apply Permutation_length in P; discriminate|apply Permutation_length in P; discriminate|].
  destruct (Nat.eq_dec a b) as [<-|D].
  - f_equal. inversion N as [|? ? A N1]; subst. inversion N' as [|? ? A' N1']; subst. apply IH; try assumption; [exact (Permutation_cons_inv P)|].
    intros i j I J. specialize (H i j (or_intror I) (or_intror J)). unfold final in *. cbn [fold_left next fst snd] in H.
    destruct (Nat.eqb_spec a i) as [->|_]; [contradiction|]. destruct (Nat.eqb_spec a j) as [->|_]; [contradiction|]. exact H.
  - exfalso. assert (B : In b (a :: q)) by (apply (Permutation_in _ (Permutation_sym P)); left; reflexivity).
    specialize (H a b (or_introl eq_refl) B). unfold final in H. cbn [fold_left next fst snd] in H. rewrite !Nat.eqb_refl in H. destruct (Nat.eqb_spec b a) as [E|_]; [congruence|].
    destruct (final_stays q (a, b)) as [F _]. destruct (final_stays q' (a, b)) as [_ F']. unfold final in F, F'. rewrite F, F' in H. discriminate H.
Qed.
(** For every number of entries there are a map and a text for which all orders have different results: the number of
    results C110_results gives is reached. The model's characters are arbitrary numbers: the characters of this map and
    text are at most 2*n+1, hence Unicode scalar values of Rust's char for n up to 27,647 (see C110_characters). *)
Theorem C110_all_orders_show : forall n, exists l t, List.length l = n /\ NoDup (map fst l) /\
  exists L, NoDup L /\ List.length L = orders_of [MLig l] /\ forall out, result [MLig l] t out <-> In out L.
Proof.
  intros n. set (l := map entry_of (seq 0 n)). set (ps := list_prod (seq 0 n) (seq 0 n)). set (t := laid ps (fun _ => Both)). exists l, t.
  assert (K : forall i j, mid_of i = mid_of j -> i = j).
  { intros i j E. apply Nat.eqb_eq. rewrite <- mid_eqb, E. apply N.eqb_refl. }
  assert (J : forall x y, entry_of x = entry_of y -> x = y) by (intros x y E; apply K; exact (f_equal (fun e => nth 1 (fst e) 0%N) E)).
  split; [unfold l; rewrite map_length, seq_length; reflexivity|]. split.
  - unfold l. rewrite map_map. apply nodup_map_on; [apply seq_NoDup|]. intros x y _ _ E. apply K. exact (f_equal (fun k => nth 1 k 0%N) E).
  - exists (map (fun p => pass p t) (perms l)). split; [|split].
    + apply nodup_map_on.
      * apply perms_nodup. unfold l. apply nodup_map_on; [apply seq_NoDup|]. intros x y _ _. apply J.
      * intros p p' P P' E. apply perms_in in P, P'. apply Permutation_sym in P, P'. apply Permutation_map_inv in P as (q & -> & Q). apply Permutation_map_inv in P' as (q' & -> & Q').
        unfold t in E. rewrite !pass_laid in E. f_equal. apply final_orders.
        -- exact (Permutation_NoDup Q (seq_NoDup n 0)).
        -- exact (Permutation_NoDup Q' (seq_NoDup n 0)).
        -- rewrite <- Q. exact Q'.
        -- intros i j I I'. apply (laid_inj ps _ _ E (i, j)). apply in_prod; apply (Permutation_in _ (Permutation_sym Q)); assumption.
    + rewrite map_length, perms_length. cbn [orders_of fold_right orders]. lia.
    + intros out. rewrite result_lig, in_map_iff. split; intros (p & A & B); exists p; (split; [|try apply perms_in]); auto; apply perms_in; assumption.
Qed.
Transparent mid_of val_of.
Example C110_characters : forall n i, (N.of_nat n <= 27647)%N -> i < n -> (mid_of i < 55296 /\ val_of i < 55296)%N.
Proof. intros n i H I. unfold mid_of, val_of. lia. Qed.
Example C110_all_orders_show_case : let t := laid (list_prod (seq 0 3) (seq 0 3)) (fun _ => Both) in
  List.length (nodup (list_eq_dec N.eq_dec) (map (fun p => pass p t) (perms (map entry_of (seq 0 3))))) = 6.
Proof. vm_compute. reflexivity. Qed.
Print Assumptions C110_all_orders_show.
