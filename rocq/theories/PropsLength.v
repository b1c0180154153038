(** C102: how long results get. *)
From Coq Require Import String.
From Verif Require Import Base StrOps Utf8 Converter Ligature ModifierKind ChanomaModel Spec BaseFacts LigFacts LengthSpec LengthFacts
  PropsConverter PropsPipeline PropsLig PropsNeo PropsNeoMore.
Local Open Scope string_scope.
Local Open Scope list_scope.

(** One ligature: the key is replaced as often as it fits into the text. *)
Theorem C102_single : forall k v s out, k <> [] -> result [MLig [(k, v)]] s out ->
  exists n, most k s n /\ List.length out + n * List.length k = List.length s + n * List.length v.
Proof.
  intros k v s out N (o & R). apply (C20_single_exact false o k v s out N) in R.
  induction R as [|k' v' s out Nk [-> ->] R (n & M & L)|x s out M R (n & Q & L)].
  - exists 0. split; [apply most_nil, N|reflexivity].
  - exists (S n). split; [apply most_hit; assumption|]. rewrite !app_length. lia.
  - exists n. split; [|cbn [List.length]; lia]. apply most_miss; [|exact Q]. apply (M k v). auto.
Qed.
Print Assumptions C102_single.
(** An empty key: the value is put in once more than the text has characters. *)
Theorem C102_empty_key : forall v s out, result [MLig [([], v)]] s out -> List.length out = List.length s + S (List.length s) * List.length v.
Proof.
  intros v s out (o & R). destruct (C20_empty_key false o v s) as (out' & R' & ->). rewrite R in R'. apply Ok_inj in R'. subst out. clear R.
  induction s as [|c s IH]; cbn [map concat app List.length] in *; [lia|]. rewrite !app_length in *. cbn [List.length] in *. lia.
Qed.
Print Assumptions C102_empty_key.
(** A map that does not interfere with itself: every key is replaced as often as it fits into the text. *)
Theorem C102_map : forall m s out, NoDup (map fst m) -> non_interfering m -> result [MLig m] s out ->
  exists count : str -> nat, (forall k v, In (k, v) m -> most k s (count k)) /\
    List.length out + list_sum (map (fun p => count (fst p) * List.length (fst p)) m) =
    List.length s + list_sum (map (fun p => count (fst p) * List.length (snd p)) m).
Proof.
  intros m s out D N (o & R). rewrite normalize_lig in R. apply Ok_inj in R. apply (lig_modify_iff _ _ _ _ D N) in R. exact (replaced_lengths m s out D N R).
Qed.
Print Assumptions C102_map.

(** [growth c g]: the factor by which a result can be longer than the text. The keys are not empty, a map has
    values of at most [V] characters. *)
Inductive growth : chanoma -> nat -> Prop :=
| gr_nil : growth [] 1
| gr_plain m c g : (forall l, m <> MLig l) -> growth c g -> growth (m :: c) g
| gr_lig l V c g : (forall k v, In (k, v) l -> k <> [] /\ List.length v <= V) -> 1 <= V -> growth c g -> growth (MLig l :: c) (V ^ List.length l * g).
Theorem C102_bound : forall c g, Forall constructible c -> growth c g -> forall s out, result c s out -> List.length out <= List.length s * g.
Proof.
  intros c g H G s out (o & R). unfold normalize in R. cbn [negb] in R. revert R. generalize 0 as i. revert H s.
  induction G as [|m c g N G IH|l V c g B LV G IH]; intros H s i R; cbn [normalize_fold] in R.
  - apply Ok_inj in R. subst out. lia.
  - inversion H as [|? ? Hm Hc]; subst. apply bind_ok in R as (mid & R1 & R2). apply (IH Hc) in R2. apply modify_shrinks in R1; [|exact Hm|exact N]. eapply Nat.le_trans; [exact R2|]. apply Nat.mul_le_mono_r, R1.
  - inversion H as [|? ? Hm Hc]; subst. cbn [modify bind] in R. apply (IH Hc) in R. eapply Nat.le_trans; [exact R|]. rewrite Nat.mul_assoc. apply Nat.mul_le_mono_r.
    unfold lig_modify. pose proof (hash_iter_perm (sub o i) l) as P. rewrite (Permutation_length P).
    apply turn_bound; [exact LV|]. intros k v I. apply B. apply (Permutation_in _ (Permutation_sym P) I).
Qed.
Print Assumptions C102_bound.

(** Every character is replaced by two of the next. *)
Definition doubling (i n : nat) : ligature := map (fun j => ([N.of_nat j], [N.of_nat (S j); N.of_nat (S j)])) (seq i n).
Lemma replace_double a b m : replace [a] [b; b] (repeat a m) = repeat b (2 * m).
Proof.
  apply replace_spec; [discriminate|]. induction m as [|m IH]; [constructor|]. replace (2 * S m) with (2 + 2 * m) by lia.
  apply (rep_hit _ [a] [b; b]); [discriminate|split; reflexivity|exact IH].
Qed.
Lemma doubling_text n : forall i m, fold_left (fun text ft => replace (fst ft) (snd ft) text) (doubling i n) (repeat (N.of_nat i) m) = repeat (N.of_nat (i + n)) (2 ^ n * m).
Proof.
  induction n as [|n IH]; intros i m.
  - cbn [doubling seq map fold_left Nat.pow]. rewrite Nat.add_0_r, Nat.mul_1_l. reflexivity.
  - change (doubling i (S n)) with (([N.of_nat i], [N.of_nat (S i); N.of_nat (S i)]) :: doubling (S i) n). cbn [fold_left fst snd].
    rewrite replace_double, IH. f_equal; [f_equal; lia|]. cbn [Nat.pow]. lia.
Qed.
(** The bound is reached, so a map can make texts longer by a factor exponential in the number of its entries. *)
Theorem C102_exponential : forall n, (N.of_nat n < 0xD800)%N -> exists l s out, List.length l = n /\ NoDup (map fst l) /\ List.length s = 1 /\ valid_str s /\
  (forall k v, In (k, v) l -> List.length k = 1 /\ List.length v = 2 /\ valid_str k /\ valid_str v) /\
  growth [MLig l] (2 ^ n * 1) /\ result [MLig l] s out /\ List.length out = 2 ^ n.
Proof.
  intros n L. assert (V : forall i, i <= n -> is_scalar (N.of_nat i) = true).
  { intros i Li. unfold is_scalar. apply Bool.orb_true_iff. left. apply N.ltb_lt. lia. }
  assert (I : forall k v, In (k, v) (doubling 0 n) -> List.length k = 1 /\ List.length v = 2 /\ valid_str k /\ valid_str v).
  { intros k v J. unfold doubling in J. apply in_map_iff in J as (i & E & J). apply List.in_seq in J. apply pair_equal_spec in E as [<- <-]. repeat split; repeat constructor; apply V; lia. }
  exists (doubling 0 n), [0%N], (repeat (N.of_nat n) (2 ^ n)). split; [unfold doubling; rewrite map_length, seq_length; reflexivity|]. split.
  { unfold doubling. rewrite map_map. cbn [fst]. apply FinFun.Injective_map_NoDup; [|apply seq_NoDup]. intros x y E. injection E as E. lia. }
  split; [reflexivity|]. split; [repeat constructor|]. split; [exact I|]. split.
  { replace n with (List.length (doubling 0 n)) at 2 by (unfold doubling; rewrite map_length, seq_length; reflexivity). constructor; [|lia|constructor].
    intros k v J. destruct (I k v J) as (A & B & _). split; [destruct k; [discriminate A|discriminate]|lia]. }
  split; [|apply repeat_length].
  destruct (hash_iter_surj (doubling 0 n) (doubling 0 n) (Permutation_refl _)) as (o & E). exists (fun p => match p with [] => [] | _ :: q => o q end).
  rewrite normalize_lig. f_equal. unfold lig_modify. change (sub _ 0) with o. rewrite E. rewrite <- (Nat.mul_1_r (2 ^ n)). exact (doubling_text n 0 1).
Qed.
Print Assumptions C102_exponential.
Example C102_case : result [MLig [(lit "aa", lit "b")]] (lit "aaaxaa") (lit "baxb") /\ most (lit "aa") (lit "aaaxaa") 2.
Proof.
  split; [exists no_order; reflexivity|]. destruct (C102_single (lit "aa") (lit "b") (lit "aaaxaa") (lit "baxb")) as (n & M & L); [discriminate|exists no_order; reflexivity|].
  cbn in L. replace 2 with n by lia. exact M.
Qed.
Example C102_case_bound : growth [MTrim; MLig [(lit "a", lit "bcd"); (lit "d", lit "ee")]; MDot] (3 ^ 2 * 1) /\
  result [MTrim; MLig [(lit "a", lit "bcd"); (lit "d", lit "ee")]; MDot] (lit " aa ") (lit "bceebcee").
Proof.
  split; [|exists no_order; reflexivity]. apply gr_plain; [discriminate|]. apply (gr_lig [(lit "a", lit "bcd"); (lit "d", lit "ee")] 3).
  - intros k v [E|[E|[]]]; injection E as <- <-; split; try discriminate; cbn; lia.
  - lia.
  - apply gr_plain; [discriminate|constructor].
Qed.
