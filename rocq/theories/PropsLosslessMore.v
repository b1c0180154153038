(** C112, continued: ligatures whose value keeps the key at its beginning or end. *)
From Coq Require Import String Lia.
From Verif Require Import Base Utf8 StrOps Ligature ModifierKind ChanomaModel CharSpec Spec BaseFacts LigFacts PropsPipeline PropsLig CommProps EditSpec EditFacts EditLig BackSpec BackFacts
  OrderSpec PropsOrderShows LosslessSpec PropsLossless.
Local Open Scope string_scope.
Local Open Scope list_scope.

Lemma replaced_ind_one k v s : k <> [] -> replaced (one k v) s (replace k v s).
Proof. intros N. apply replace_spec; [exact N|reflexivity]. Qed.
(** No longer than the key, what the result begins with the text begins with. *)
Lemma front_prefix k y s out : replaced (one k (k ++ y)) s out -> forall q, List.length q <= List.length k -> prefix_of q out -> prefix_of q s.
Proof.
  induction 1 as [|k' v' s out Nk [-> ->] H IH|x s out M H IH]; intros q L P; [exact P| |].
  - destruct P as (r & E). rewrite <- app_assoc in E. exists (skipn (List.length q) k ++ s). rewrite app_assoc. f_equal.
    assert (Q : q = firstn (List.length q) k).
    { apply (f_equal (firstn (List.length q))) in E. rewrite !firstn_app, firstn_all, Nat.sub_diag in E. cbn [firstn] in E. rewrite app_nil_r in E.
      replace (List.length q - List.length k) with 0 in E by lia. cbn [firstn] in E. rewrite app_nil_r in E. symmetry. exact E. }
    rewrite Q at 1. symmetry. apply firstn_skipn.
  - destruct q as [|c q]; [exists (x :: s); reflexivity|]. destruct P as (r & E). injection E as <- E. destruct (IH q) as (r' & ->); [cbn in L; lia|exists r; exact E|]. exists r'. reflexivity.
Qed.
Lemma front_injective k y : k <> [] -> forall s out, replaced (one k (k ++ y)) s out -> forall t, replaced (one k (k ++ y)) t out -> s = t.
Proof.
  intros N s out H. induction H as [|k' v' s out Nk [-> ->] H IH|x s out M H IH]; intros t T.
  - inversion T as [|k' v' s' o' Nk [E1 E2] H' E3 E4|]; subst; [reflexivity|]. destruct k; [contradiction|discriminate E4].
  - assert (P : prefix_of k t) by (apply (front_prefix k y t _ T k (le_n _)); exists (y ++ out); symmetry; apply app_assoc).
    inversion T as [E1 E2|k' v' s' o' Nk' [E1 E2] H' E3 E4|x s' o' M' H' E3 E4]; subst.
    + destruct P as (r & P). symmetry in P. apply app_eq_nil in P as [P _]. contradiction.
    + apply app_inv_head in E4. subst o'. f_equal. apply IH, H'.
    + destruct (M' k (k ++ y)); [split; reflexivity|exact P].
  - inversion T as [|k' v' s' o' Nk' [E1 E2] H' E3 E4|x' s' o' M' H' E3 E4]; subst.
    + exfalso. apply (M k (k ++ y)); [split; reflexivity|].
      apply (front_prefix k y (x :: s) (x :: out)); [apply rep_miss; assumption|apply le_n|]. rewrite <- E4. exists (y ++ o'). symmetry. apply app_assoc.
    + f_equal. apply IH, H'.
Qed.
(** A ligature whose value begins with its key loses nothing. *)
Theorem C112_key_in_front : forall k y, loses_nothing [MLig [(k, k ++ y)]].
Proof.
  intros k y. rewrite (does_injective _ _ (does_one k (k ++ y))). intros s t _ _ E. destruct k as [|c k]; [exact (empty_injective y s t E)|].
  apply (front_injective (c :: k) y ltac:(discriminate) s (replace (c :: k) ((c :: k) ++ y) s)); [apply replaced_ind_one; discriminate|].
  rewrite E. apply replaced_ind_one. discriminate.
Qed.
Print Assumptions C112_key_in_front.

(** ** The key at the end *)
Lemma rules_one k v a b : rules [(k, v)] a b <-> one k v a b.
Proof. unfold rules, one. cbn [In]. split; [intros [E|[]]; injection E as <- <-; auto|intros [-> ->]; auto]. Qed.
Lemma replaced_iff (R R' : str -> str -> Prop) s out : (forall a b, R a b <-> R' a b) -> replaced R s out -> replaced R' s out.
Proof. intros I H. induction H as [|k v s out N K H IH|x s out M H IH]; [constructor|apply rep_hit; [exact N|apply I, K|exact IH]|apply rep_miss; [|exact IH]]. intros k v K. apply M with v, I, K. Qed.
Lemma one_det k v : forall a b a' b' s, rules [(k, v)] a b -> rules [(k, v)] a' b' -> prefix_of a s -> prefix_of a' s -> a = a' /\ b = b'.
Proof. intros a b a' b' s H H' _ _. apply rules_one in H as [-> ->]. apply rules_one in H' as [-> ->]. auto. Qed.
Lemma one_exists k v s : k <> [] -> exists out, replaced (rules [(k, v)]) s out.
Proof. intros N. exists (replace k v s). apply (replaced_iff (one k v)); [intros a b; symmetry; apply rules_one|]. apply replaced_ind_one, N. Qed.
Lemma one_back k v s out : k <> [] -> separate [(k, v)] -> replaced (rules [(k, v)]) s out -> replaced (rules [(rev k, rev v)]) (rev s) (rev out).
Proof.
  intros NK SP H. pose proof (back_separate _ SP : separate [(rev k, rev v)]) as SP'.
  assert (NK' : rev k <> []) by (intros Q; apply NK, rev_inj, Q).
  assert (Hk' : In (rev k, rev v) [(rev k, rev v)]) by (left; reflexivity).
  induction H as [|k0 v0 s out Nk Hk H IH|x s out M H IH]; [constructor| |].
  - apply rules_one in Hk as [-> ->]. rewrite !rev_app_distr. destruct (one_exists (rev k) (rev v) (rev s ++ rev k) NK') as (z & Z).
    destruct (replaced_cut _ _ _ Z (rev s) (rev k) eq_refl) as (oa & ob & E & Ha & Hb).
    { intros (a & b & (k' & v' & I & O & ->) & L).
      assert (O' : occurs_at (rev k) (rev s ++ rev k) (List.length (rev s))) by (exists (rev s), []; rewrite app_nil_r; auto).
      destruct (SP' _ _ _ _ _ _ _ I Hk' O O') as [[_ ->]|[?|?]]; lia || (pose proof (occurs_bound _ _ _ O); rewrite app_length in *; lia). }
    subst z. assert (oa = rev out) as -> by (eapply replaced_det; [apply one_det|exact Ha|exact IH]).
    assert (ob = rev v) as ->; [|exact Z].
    eapply replaced_det; [apply one_det|exact Hb|]. rewrite <- (app_nil_r (rev k)) at 2. rewrite <- (app_nil_r (rev v)) at 2.
    apply rep_hit; [exact NK'|exact Hk'|constructor].
  - cbn [rev].
    assert (F : forall w, rev s ++ [x] = w ++ rev k -> False).
    { intros w E. apply (f_equal (@rev _)) in E. rewrite !rev_app_distr, !rev_involutive in E. cbn [rev app] in E. apply (M k v); [left; reflexivity|]. exists (rev w). exact E. }
    destruct (one_exists (rev k) (rev v) (rev s ++ [x]) NK') as (z & Z).
    destruct (replaced_cut _ _ _ Z (rev s) [x] eq_refl) as (oa & ob & E & Ha & Hb).
    { intros (a & b & (k' & v' & I & O & ->) & L). pose proof (occurs_bound _ _ _ O) as Bd. rewrite app_length in Bd. cbn [List.length] in Bd.
      apply rules_one in I as [-> ->]. destruct O as (u & w & Eq & <-). destruct w as [|c w]; [rewrite app_nil_r in Eq; exact (F _ Eq)|].
      apply (f_equal (@List.length _)) in Eq. rewrite !app_length in Eq. cbn [List.length] in Eq. lia. }
    subst z. assert (oa = rev out) as -> by (eapply replaced_det; [apply one_det|exact Ha|exact IH]).
    assert (ob = [x]) as ->; [|exact Z].
    eapply replaced_det; [apply one_det|exact Hb|]. apply rep_miss; [|constructor].
    intros k0 v0 I (r & Q). apply rules_one in I as [-> ->]. destruct (rev k) as [|c k'] eqn:K; [contradiction|].
    injection Q as <- Q. symmetry in Q. apply app_eq_nil in Q as [-> ->]. exact (F (rev s) eq_refl).
Qed.
(** So does one whose value ends with its key, if occurrences of the key never share characters. *)
Theorem C112_key_at_end : forall k x, k <> [] ->
  (forall s i j, occurs_at k s i -> occurs_at k s j -> i = j \/ i + List.length k <= j \/ j + List.length k <= i) -> loses_nothing [MLig [(k, x ++ k)]].
Proof.
  intros k x N A. assert (SP : separate [(k, x ++ k)]).
  { intros s k1 v1 k2 v2 i j [I|[]] [J|[]] O O'. injection I as <- _. injection J as <- _. destruct (A s i j O O') as [E|E]; [left; auto|right; exact E]. }
  rewrite (does_injective _ _ (does_one k (x ++ k))). intros s t _ _ E.
  assert (B : forall u, replaced (one (rev k) (rev k ++ rev x)) (rev u) (rev (replace k (x ++ k) u))).
  { intros u. apply (replaced_iff (rules [(rev k, rev (x ++ k))])); [rewrite rev_app_distr; apply rules_one|].
    apply one_back; [exact N|exact SP|]. apply (replaced_iff (one k (x ++ k))); [intros a b; symmetry; apply rules_one|]. apply replaced_ind_one, N. }
  apply rev_inj. apply (front_injective (rev k) (rev x)) with (out := rev (replace k (x ++ k) s)); [intros Q; apply N, rev_inj, Q|apply B|rewrite E; apply B].
Qed.
Print Assumptions C112_key_at_end.
(** Otherwise it may not. *)
Theorem C112_key_at_end_refuted : exists k x, k <> [] /\ valid_str k /\ valid_str x /\ ~ loses_nothing [MLig [(k, x ++ k)]].
Proof.
  exists (lit "aba"), (lit "b"). split; [discriminate|]. split; [repeat constructor|]. split; [repeat constructor|].
  rewrite (does_injective _ _ (does_one _ _)). intros H. assert (E : lit "ababa" = lit "baaba") by (apply H; [repeat constructor..|reflexivity]). discriminate E.
Qed.
Print Assumptions C112_key_at_end_refuted.
Lemma ab_apart : forall s i j, occurs_at (lit "ab") s i -> occurs_at (lit "ab") s j -> i = j \/ i + List.length (lit "ab") <= j \/ j + List.length (lit "ab") <= i.
Proof.
  change (lit "ab") with [97%N; 98%N]. cbn [List.length].
  assert (K : forall s i, occurs_at [97%N; 98%N] s i -> nth_error s i = Some 97%N /\ nth_error s (S i) = Some 98%N).
  { intros s i (a & b & -> & <-). split; (rewrite nth_error_app2 by lia); [rewrite Nat.sub_diag; reflexivity|]. replace (S (List.length a) - List.length a) with 1 by lia. reflexivity. }
  intros s i j H H'. apply K in H as [A B]. apply K in H' as [C D].
  destruct (Nat.eq_dec j (S i)) as [->|]; [congruence|]. destruct (Nat.eq_dec i (S j)) as [->|]; [congruence|]. lia.
Qed.
(** "ab" becomes "abba" or "bbab": different texts stay different. *)
Example C112_key_case : loses_nothing [MLig [(lit "ab", lit "abba")]] /\ loses_nothing [MLig [(lit "ab", lit "bbab")]] /\ result [MLig [(lit "ab", lit "bbab")]] (lit "cab") (lit "cbbab").
Proof.
  split; [exact (C112_key_in_front (lit "ab") (lit "ba"))|]. split; [apply (C112_key_at_end (lit "ab") (lit "bb")); [discriminate|exact ab_apart]|].
  apply does_one. reflexivity.
Qed.
Lemma front_back k y s out : k <> [] -> replaced (one k (k ++ y)) s out -> replaced (one (k ++ y) k) out s.
Proof.
  intros N H. induction H as [|k' v' s out Nk [-> ->] H IH|x s out M H IH]; [constructor| |].
  - apply rep_hit; [intros Q; apply app_eq_nil in Q as [Q _]; contradiction|split; reflexivity|exact IH].
  - apply rep_miss; [|exact IH]. intros k' v' [-> ->] (r & P). apply (M k (k ++ y)); [split; reflexivity|].
    apply (front_prefix k y (x :: s) (x :: out)); [apply rep_miss; assumption|apply le_n|]. exists (y ++ r). rewrite P. symmetry. apply app_assoc.
Qed.
(** The ligature with key and value exchanged undoes it. *)
Theorem C112_key_in_front_undone : forall k y, k <> [] -> forall s out, result [MLig [(k, k ++ y)]; MLig [(k ++ y, k)]] s out <-> out = s.
Proof.
  intros k y N s out. change [MLig [(k, k ++ y)]; MLig [(k ++ y, k)]] with ([MLig [(k, k ++ y)]] ++ [MLig [(k ++ y, k)]]). rewrite result_app.
  assert (N' : k ++ y <> []) by (intros Q; apply app_eq_nil in Q as [Q _]; contradiction).
  assert (B : replace (k ++ y) k (replace k (k ++ y) s) = s) by (apply replace_spec; [exact N'|]; apply front_back; [exact N|apply replaced_ind_one, N]).
  split.
  - intros (mid & A & C). apply (does_one k (k ++ y)) in A. apply (does_one (k ++ y) k) in C. congruence.
  - intros ->. exists (replace k (k ++ y) s). split; [apply (does_one k (k ++ y)); reflexivity|apply (does_one (k ++ y) k); symmetry; exact B].
Qed.
Print Assumptions C112_key_in_front_undone.
(** Not so for the empty key, though that loses nothing either. *)
Theorem C112_empty_key_undone_refuted : exists y s out, result [MLig [([], y)]; MLig [(y, [])]] s out /\ out <> s.
Proof.
  exists (lit "a"), (lit "a"), []. split; [|discriminate]. change [MLig [([], lit "a")]; MLig [(lit "a", [])]] with ([MLig [([], lit "a")]] ++ [MLig [(lit "a", [])]]).
  apply result_app. exists (lit "aaa"). split; apply does_one; reflexivity.
Qed.
Print Assumptions C112_empty_key_undone_refuted.
