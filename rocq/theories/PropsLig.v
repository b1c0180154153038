(** Properties C20-C22: ligature translation. *)
From Verif Require Import Base BaseFacts StrOps Ligature ModifierKind ChanomaModel Spec LigFacts PropsConverter.

Lemma normalize_lig dbg o m s : normalize dbg o [MLig m] s = Ok (lig_modify (sub o 0) m s).
Proof. destruct dbg; reflexivity. Qed.

Lemma lig_one o p v s : lig_modify o [(p, v)] s = replace p v s.
Proof.
  unfold lig_modify. pose proof (hash_iter_perm o [(p, v)]) as H.
  apply Permutation_length_1_inv in H. rewrite H. reflexivity.
Qed.

Lemma replace_empty_spec v s : inserted v s (replace [] v s).
Proof.
  unfold inserted, replace. induction s as [|c s IH]; cbn [replace_empty map concat]; [reflexivity|].
  rewrite IH. rewrite <- !app_assoc. reflexivity.
Qed.

Lemma C20_lemma dbg o k v s out : k <> [] ->
  (normalize dbg o [MLig [(k, v)]] s = Ok out <-> replaced (fun k' v' => k' = k /\ v' = v) s out).
Proof.
  intros Hk. rewrite normalize_lig, lig_one, <- (replace_spec k v s out Hk). split; congruence.
Qed.
Lemma C20_empty_lemma dbg o v s : exists out, normalize dbg o [MLig [([], v)]] s = Ok out /\ inserted v s out.
Proof. eexists. rewrite normalize_lig, lig_one. split; [reflexivity|apply replace_empty_spec]. Qed.

Lemma in_turn_fold l s : applied_in_turn l s (fold_left (fun text ft => replace (fst ft) (snd ft) text) l s).
Proof.
  revert s; induction l as [|[k v] l IH]; intros s; cbn [fold_left fst snd]; [apply ait_nil|].
  destruct k as [|x k].
  - eapply ait_empty; [apply replace_empty_spec|apply IH].
  - eapply ait_key; [discriminate|apply replace_spec; [discriminate|reflexivity]|apply IH].
Qed.
Lemma fold_in_turn l s out : applied_in_turn l s out ->
  out = fold_left (fun text ft => replace (fst ft) (snd ft) text) l s.
Proof.
  induction 1 as [s|k v l s t out Hk Hr H IH|v l s t out Hi H IH]; cbn [fold_left fst snd].
  - reflexivity.
  - apply (replace_spec k v s t Hk) in Hr. congruence.
  - pose proof (replace_empty_spec v s) as E. unfold inserted in *. congruence.
Qed.
Lemma C22_exact_lemma dbg m s out :
  (exists o, normalize dbg o [MLig m] s = Ok out) <-> exists l, Permutation m l /\ applied_in_turn l s out.
Proof.
  split.
  - intros (o & H). rewrite normalize_lig in H. injection H as <-.
    exists (hash_iter (sub o 0) m). split; [apply hash_iter_perm|apply in_turn_fold].
  - intros (l & HP & H). destruct (hash_iter_surj m l HP) as (o & Ho).
    exists (fun _ => o []). rewrite normalize_lig. f_equal. unfold lig_modify.
    rewrite (fold_in_turn _ _ _ H). f_equal. rewrite <- Ho. reflexivity.
Qed.

Lemma C21_lemma dbg o m s : NoDup (map fst m) -> non_interfering m ->
  exists out, normalize dbg o [MLig m] s = Ok out /\
    (forall out', replaced (fun k v => In (k, v) m) s out' <-> out' = out) /\
    (forall dbg' o', normalize dbg' o' [MLig m] s = Ok out) /\
    forall k v, In (k, v) m -> ~ occurs k out.
Proof.
  intros Hnd Hni. exists (lig_modify (sub o 0) m s). rewrite normalize_lig.
  split; [reflexivity|]. split; [|split].
  - intros out'. fold (rules m). rewrite <- (lig_modify_iff (sub o 0) m s out' Hnd Hni). split; congruence.
  - intros dbg' o'. rewrite normalize_lig. f_equal. apply lig_modify_iff; [assumption..|].
    apply lig_replaced; assumption.
  - apply replaced_no_key with s; [exact Hni|]. apply lig_replaced; assumption.
Qed.

(** C20 *)
Theorem C20_single_exact : forall dbg o k v s out,
  k <> [] ->
  (normalize dbg o [MLig [(k, v)]] s = Ok out <-> replaced (fun k' v' => k' = k /\ v' = v) s out).
Proof. exact C20_lemma. Qed.
Print Assumptions C20_single_exact.
Theorem C20_empty_key : forall dbg o v s,
  exists out, normalize dbg o [MLig [([], v)]] s = Ok out /\ inserted v s out.
Proof. exact C20_empty_lemma. Qed.
Print Assumptions C20_empty_key.
Example C20_case : normalize false no_order [MLig [(lit "aa", lit "b")]] (lit "aaaxaa") = Ok (lit "baxb").
Proof. reflexivity. Qed.
Example C20_empty_case : normalize false no_order [MLig [([], lit "-")]] (lit "ab") = Ok (lit "-a-b-").
Proof. reflexivity. Qed.

(** C21 *)
Theorem C21_simultaneous : forall dbg o m s,
  NoDup (map fst m) -> non_interfering m ->
  exists out, normalize dbg o [MLig m] s = Ok out /\
    (forall out', replaced (fun k v => In (k, v) m) s out' <-> out' = out) /\
    (forall dbg' o', normalize dbg' o' [MLig m] s = Ok out) /\
    forall k v, In (k, v) m -> ~ occurs k out.
Proof. exact C21_lemma. Qed.
Print Assumptions C21_simultaneous.
Definition ex_lig : list (str * str) := [(lit "ab", lit "X"); (lit "cd", lit "YZ")].
Example C21_case_hyps : NoDup (map fst ex_lig) /\ non_interfering ex_lig.
Proof.
  split; [repeat constructor; cbn; intuition discriminate|].
  split; [|split].
  - intros k v [H|[H|[]]]; injection H as <- <-; split; discriminate.
  - assert (G : forall x y z w : char, x <> z -> x <> w -> y <> z -> y <> w -> never_overlap [x; y] [z; w]).
    { intros x y z w H1 H2 H3 H4 s i j (a & b & E & <-) (a' & b' & E' & <-). rewrite E in E'. clear E.
      cbn [length].
      assert (Q : forall k, nth_error (a ++ [x; y] ++ b) k = nth_error (a' ++ [z; w] ++ b') k) by (rewrite E'; reflexivity).
      destruct (le_lt_dec (length a + 2) (length a')) as [L|L]; [left; exact L|].
      destruct (le_lt_dec (length a' + 2) (length a)) as [L'|L']; [right; exact L'|].
      exfalso.
      assert (C : length a' = length a \/ length a' = length a + 1 \/ length a = length a' + 1) by lia.
      destruct C as [C|[C|C]].
      - specialize (Q (length a)). rewrite (nth_error_app2 a), (nth_error_app2 a') in Q by lia.
        replace (length a - length a) with 0 in Q by lia. replace (length a - length a') with 0 in Q by lia.
        simpl in Q. congruence.
      - specialize (Q (length a')). rewrite (nth_error_app2 a), (nth_error_app2 a') in Q by lia.
        replace (length a' - length a) with 1 in Q by lia. replace (length a' - length a') with 0 in Q by lia.
        simpl in Q. congruence.
      - specialize (Q (length a)). rewrite (nth_error_app2 a), (nth_error_app2 a') in Q by lia.
        replace (length a - length a) with 0 in Q by lia. replace (length a - length a') with 1 in Q by lia.
        simpl in Q. congruence. }
    intros k v k' v' [H|[H|[]]] [H'|[H'|[]]] Hne; injection H as <- <-; injection H' as <- <-;
      try (exfalso; apply Hne; reflexivity); apply G; discriminate.
  - intros k v k' v' x [H|[H|[]]] [H'|[H'|[]]]; injection H as <- <-; injection H' as <- <-;
      cbn; intuition (subst; discriminate).
Qed.
Example C21_case : normalize true other_order [MLig ex_lig] (lit "abcdacd") = Ok (lit "XYZaYZ").
Proof. reflexivity. Qed.

(** C22 *)
Theorem C22_outcomes_exact : forall dbg m s out,
  (exists o, normalize dbg o [MLig m] s = Ok out) <-> exists l, Permutation m l /\ applied_in_turn l s out.
Proof. exact C22_exact_lemma. Qed.
Print Assumptions C22_outcomes_exact.
Theorem C22_order_independent_refuted : exists m s o o',
  NoDup (map fst m) /\ (forall k v, In (k, v) m -> k <> [] /\ v <> []) /\
  normalize false o [MLig m] s <> normalize false o' [MLig m] s.
Proof.
  exists [(lit "a", lit "b"); (lit "b", lit "c")], (lit "a"), no_order, other_order.
  split; [repeat constructor; cbn; intuition discriminate|]. split; [|vm_compute; discriminate].
  intros k v [H|[H|[]]]; injection H as <- <-; split; discriminate.
Qed.
Print Assumptions C22_order_independent_refuted.
(** Overlapping keys, with values foreign to the keys. *)
Theorem C22_overlap_order_refuted : exists m s o o',
  NoDup (map fst m) /\ (forall k v k' v' x, In (k, v) m -> In (k', v') m -> In x v -> ~ In x k') /\
  normalize false o [MLig m] s <> normalize false o' [MLig m] s.
Proof.
  exists [(lit "ab", lit "X"); (lit "bc", lit "Y")], (lit "abc"), no_order, other_order.
  split; [repeat constructor; cbn; intuition discriminate|]. split; [|vm_compute; discriminate].
  intros k v k' v' x [H|[H|[]]] [H'|[H'|[]]]; injection H as <- <-; injection H' as <- <-;
    cbn; intuition (subst; discriminate).
Qed.
Print Assumptions C22_overlap_order_refuted.
