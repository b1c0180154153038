From Verif Require Import Base BaseFacts Utf8 Corr Table Spec.

(** ** str_cmp *)
Lemma str_cmp_refl a : str_cmp a a = Eq.
Proof. induction a as [|x a IH]; simpl; [reflexivity|]. rewrite N.compare_refl. exact IH. Qed.
Lemma str_cmp_Eq a b : str_cmp a b = Eq <-> a = b.
Proof.
  split; [|intros ->; apply str_cmp_refl].
  revert b; induction a as [|x a IH]; intros [|y b]; simpl; try discriminate; [reflexivity|].
  destruct (N.compare x y) eqn:E; try discriminate. apply N.compare_eq in E. subst. intros H. f_equal. apply IH, H.
Qed.
Lemma str_cmp_Lt a b : str_cmp a b = Lt <-> lex_lt a b.
Proof.
  revert b; induction a as [|x a IH]; intros [|y b]; simpl.
  - split; [discriminate|intros H; inversion H].
  - split; [constructor|reflexivity].
  - split; [discriminate|intros H; inversion H].
  - destruct (N.compare x y) eqn:E.
    + apply N.compare_eq in E. subst. rewrite IH. split; [constructor; assumption|].
      intros H; inversion H; subst; [lia|assumption].
    + split; [intros _; apply lex_head; exact E|reflexivity].
    + split; [discriminate|]. intros H; inversion H; subst.
      * apply N.compare_gt_iff in E. lia.
      * rewrite N.compare_refl in E. discriminate.
Qed.
Lemma str_cmp_antisym a b : str_cmp a b = CompOpp (str_cmp b a).
Proof.
  revert b; induction a as [|x a IH]; intros [|y b]; simpl; try reflexivity.
  rewrite (N.compare_antisym y x). destruct (N.compare y x); simpl; [apply IH|reflexivity|reflexivity].
Qed.
Lemma str_cmp_Gt a b : str_cmp a b = Gt <-> lex_lt b a.
Proof. rewrite str_cmp_antisym, <- str_cmp_Lt. destruct (str_cmp b a); simpl; split; congruence. Qed.
Lemma lex_lt_trans a b c : lex_lt a b -> lex_lt b c -> lex_lt a c.
Proof.
  intros H; revert c; induction H as [x b|x y a b Hxy|x a b H IH]; intros c Hc; inversion Hc; subst.
  - constructor.
  - constructor.
  - apply lex_head. lia.
  - apply lex_head. exact Hxy.
  - apply lex_head. assumption.
  - apply lex_tail. apply IH. assumption.
Qed.
Lemma lex_lt_irrefl a : ~ lex_lt a a.
Proof. intros H. apply str_cmp_Lt in H. rewrite str_cmp_refl in H. discriminate. Qed.
Lemma lex_total a b : lex_lt a b \/ a = b \/ lex_lt b a.
Proof.
  destruct (str_cmp a b) eqn:E.
  - right; left. apply str_cmp_Eq, E.
  - left. apply str_cmp_Lt, E.
  - right; right. apply str_cmp_Gt, E.
Qed.

(** ** items *)
Lemma item_eta it : it = Item (from it) (to it).
Proof. destruct it; reflexivity. Qed.
Lemma item_eqb_eq a b : item_eqb a b = true <-> a = b.
Proof.
  destruct a as [f t], b as [f' t']. unfold item_eqb. cbn [from to]. rewrite andb_true_iff, !str_eqb_eq.
  split; [intros [-> ->]; reflexivity|intros H; inversion H; auto].
Qed.
Lemma item_cmp_Lt a b : item_cmp a b = Lt <-> item_lt a b.
Proof.
  unfold item_cmp, item_lt. destruct (str_cmp (from a) (from b)) eqn:E.
  - apply str_cmp_Eq in E. rewrite E, str_cmp_Lt. split; [auto|].
    intros [H|[_ H]]; [destruct (lex_lt_irrefl _ H)|exact H].
  - apply str_cmp_Lt in E. split; auto.
  - apply str_cmp_Gt in E. split; [discriminate|]. intros [H|[H _]].
    + destruct (lex_lt_irrefl (from a)). eapply lex_lt_trans; eassumption.
    + rewrite H in E. destruct (lex_lt_irrefl _ E).
Qed.
Lemma item_cmp_Eq a b : item_cmp a b = Eq <-> a = b.
Proof.
  unfold item_cmp. destruct a as [f t], b as [f' t']. cbn [from to]. destruct (str_cmp f f') eqn:E.
  - apply str_cmp_Eq in E. subst. rewrite str_cmp_Eq. split; [intros ->; reflexivity|intros H; inversion H; reflexivity].
  - split; [discriminate|]. intros H; inversion H; subst. rewrite str_cmp_refl in E. discriminate.
  - split; [discriminate|]. intros H; inversion H; subst. rewrite str_cmp_refl in E. discriminate.
Qed.
Lemma item_lt_irrefl a : ~ item_lt a a.
Proof. intros [H|[_ H]]; exact (lex_lt_irrefl _ H). Qed.
Lemma item_lt_trans a b c : item_lt a b -> item_lt b c -> item_lt a c.
Proof.
  unfold item_lt. intros [H|[E H]] [H'|[E' H']].
  - left. eapply lex_lt_trans; eassumption.
  - left. rewrite <- E'. exact H.
  - left. rewrite E. exact H'.
  - right. split; [congruence|eapply lex_lt_trans; eassumption].
Qed.
Lemma item_total a b : item_lt a b \/ a = b \/ item_lt b a.
Proof.
  destruct (lex_total (from a) (from b)) as [H|[H|H]]; [left; left; exact H| |right; right; left; exact H].
  destruct (lex_total (to a) (to b)) as [H'|[H'|H']].
  - left. right. auto.
  - right; left. destruct a, b; cbn in *; congruence.
  - right; right. right. auto.
Qed.
Lemma item_leb_le a b : item_leb a b = true <-> item_le a b.
Proof.
  unfold item_leb, item_le. destruct (item_cmp a b) eqn:E.
  - apply item_cmp_Eq in E. tauto.
  - apply item_cmp_Lt in E. tauto.
  - split; [discriminate|]. intros [->|H].
    + assert (X : item_cmp b b = Eq) by (apply item_cmp_Eq; reflexivity). congruence.
    + apply item_cmp_Lt in H. congruence.
Qed.
Lemma item_leb_false a b : item_leb a b = false -> item_lt b a.
Proof.
  intros H. destruct (item_total a b) as [L|[L|L]]; [| |exact L];
  assert (item_leb a b = true) by (apply item_leb_le; unfold item_le; auto); congruence.
Qed.
Lemma item_le_trans a b c : item_le a b -> item_le b c -> item_le a c.
Proof.
  unfold item_le. intros [->|H] [->|H']; auto. right. eapply item_lt_trans; eassumption.
Qed.
Lemma item_le_antisym a b : item_le a b -> item_le b a -> a = b.
Proof.
  intros [->|H] [E|H']; auto. destruct (item_lt_irrefl a). eapply item_lt_trans; eassumption.
Qed.

(** ** sorting *)
Lemma insert_sorted_perm x l : Permutation (x :: l) (insert_sorted x l).
Proof.
  induction l as [|y l IH]; simpl; [reflexivity|]. destruct (item_leb x y); [reflexivity|].
  etransitivity; [apply perm_swap|]. apply perm_skip, IH.
Qed.
Lemma sort_items_perm l : Permutation l (sort_items l).
Proof.
  induction l as [|x l IH]; simpl; [reflexivity|]. etransitivity; [apply perm_skip, IH|]. apply insert_sorted_perm.
Qed.
Lemma insert_sorted_ordered x l : ordered item_le l -> ordered item_le (insert_sorted x l).
Proof.
  induction l as [|y l IH]; simpl; [auto|]. intros [H1 H2]. destruct (item_leb x y) eqn:E.
  - apply item_leb_le in E. cbn [ordered]. repeat split; auto. constructor; [exact E|].
    eapply Forall_impl; [|exact H1]. intros z Hz. eapply item_le_trans; eassumption.
  - apply item_leb_false in E. cbn [ordered]. split; [|apply IH, H2].
    eapply Permutation_Forall; [apply insert_sorted_perm|]. constructor; [right; exact E|exact H1].
Qed.
Lemma sort_items_ordered l : ordered item_le (sort_items l).
Proof. induction l as [|x l IH]; simpl; [exact I|]. apply insert_sorted_ordered, IH. Qed.

Lemma ordered_perm_eq l l' : ordered item_le l -> ordered item_le l' -> Permutation l l' -> l = l'.
Proof.
  revert l'; induction l as [|x l IH]; intros l' H H' P.
  - apply Permutation_nil in P. subst. reflexivity.
  - destruct l' as [|y l']; [apply Permutation_sym, Permutation_nil in P; discriminate|].
    destruct H as [H1 H2], H' as [H1' H2'].
    assert (x = y).
    { apply item_le_antisym.
      - assert (Hin : In y (x :: l)) by (apply Permutation_in with (y :: l'); [symmetry; exact P|left; reflexivity]).
        destruct Hin as [->|Hin]; [left; reflexivity|]. rewrite Forall_forall in H1. apply H1, Hin.
      - assert (Hin : In x (y :: l')) by (apply Permutation_in with (x :: l); [exact P|left; reflexivity]).
        destruct Hin as [->|Hin]; [left; reflexivity|]. rewrite Forall_forall in H1'. apply H1', Hin. }
    subst y. f_equal. apply IH; auto. apply Permutation_cons_inv with x. exact P.
Qed.
Lemma sort_items_perm_eq l l' : Permutation l l' -> sort_items l = sort_items l'.
Proof.
  intros H. apply ordered_perm_eq; try apply sort_items_ordered.
  rewrite <- !sort_items_perm. exact H.
Qed.
Lemma ordered_strict l : ordered item_le l -> NoDup l -> ordered item_lt l.
Proof.
  induction l as [|x l IH]; simpl; [auto|]. intros [H1 H2] Hn. inversion Hn as [|? ? Hni Hnd]; subst.
  split; [|apply IH; assumption]. rewrite Forall_forall in *. intros y Hy.
  destruct (H1 y Hy) as [->|H]; [contradiction|exact H].
Qed.
Lemma ordered_lt_le l : ordered item_lt l -> ordered item_le l.
Proof.
  induction l as [|x l IH]; simpl; [auto|]. intros [H1 H2]. split; [|apply IH, H2].
  eapply Forall_impl; [|exact H1]. intros y Hy. right; exact Hy.
Qed.
Lemma ordered_lt_NoDup l : ordered item_lt l -> NoDup l.
Proof.
  induction l as [|x l IH]; simpl; [constructor|]. intros [H1 H2]. constructor; [|apply IH, H2].
  intros Hin. rewrite Forall_forall in H1. exact (item_lt_irrefl x (H1 x Hin)).
Qed.
Lemma strict_ext l l' : ordered item_lt l -> ordered item_lt l' -> (forall it, In it l <-> In it l') -> l = l'.
Proof.
  intros H H' E. apply ordered_perm_eq; try (apply ordered_lt_le; assumption).
  apply NoDup_Permutation; try (apply ordered_lt_NoDup; assumption). exact E.
Qed.

(** ** add, sub *)
Definition usort (l : list item) : list item := sort_items (hs_insert_all item_eqb l []).
Lemma usort_In l it : In it (usort l) <-> In it l.
Proof.
  unfold usort. split.
  - intros H. apply Permutation_in with (l' := hs_insert_all item_eqb l []) in H; [|symmetry; apply sort_items_perm].
    apply (hs_insert_all_In item_eqb item_eqb_eq) in H. destruct H as [H|[]]. exact H.
  - intros H. apply Permutation_in with (hs_insert_all item_eqb l []); [apply sort_items_perm|].
    apply (hs_insert_all_In item_eqb item_eqb_eq). left; exact H.
Qed.
Lemma usort_strict l : ordered item_lt (usort l).
Proof.
  apply ordered_strict; [apply sort_items_ordered|].
  eapply Permutation_NoDup; [apply sort_items_perm|].
  apply (hs_insert_all_nodup item_eqb item_eqb_eq). constructor.
Qed.
Lemma usort_ext l l' : (forall it, In it l <-> In it l') -> usort l = usort l'.
Proof.
  intros H. apply strict_ext; try apply usort_strict. intros it. rewrite !usort_In. apply H.
Qed.
Lemma usort_fix l : ordered item_lt l -> usort l = l.
Proof. intros H. apply strict_ext; [apply usort_strict|exact H|apply usort_In]. Qed.
Lemma hs_insert_all_app {K} (eqb : K -> K -> bool) a b s :
  hs_insert_all eqb b (hs_insert_all eqb a s) = hs_insert_all eqb (a ++ b) s.
Proof. unfold hs_insert_all. rewrite fold_left_app. reflexivity. Qed.
Lemma corr_add_usort o a b : corr_add o a b = usort (a (sub o 0) ++ b (sub o 1)).
Proof.
  unfold corr_add, usort. rewrite hs_insert_all_app. apply sort_items_perm_eq. symmetry. apply hash_iter_perm.
Qed.
Lemma corr_add_assign_usort o l b : corr_add_assign o l b = usort (l ++ b (sub o 1)).
Proof.
  unfold corr_add_assign, usort. rewrite hs_insert_all_app. apply sort_items_perm_eq. symmetry. apply hash_iter_perm.
Qed.

Lemma corr_add_In o a b it : In it (corr_add o a b) <-> In it (a (sub o 0)) \/ In it (b (sub o 1)).
Proof. rewrite corr_add_usort, usort_In, in_app_iff. reflexivity. Qed.
Lemma corr_add_strict o a b : ordered item_lt (corr_add o a b).
Proof. rewrite corr_add_usort. apply usort_strict. Qed.

Definition not_in (b : list item) (it : item) : bool := negb (mem item_eqb it b).
Lemma not_in_true b it : not_in b it = true <-> ~ In it b.
Proof. unfold not_in. rewrite negb_true_iff. apply (mem_false item_eqb item_eqb_eq). Qed.
Lemma corr_sub_perm o a b : Permutation (filter (not_in (b (sub o 1))) (a (sub o 0))) (corr_sub o a b).
Proof. unfold corr_sub. apply sort_items_perm. Qed.
Lemma corr_sub_ordered o a b : ordered item_le (corr_sub o a b).
Proof. unfold corr_sub. apply sort_items_ordered. Qed.
Lemma corr_sub_In o a b it : In it (corr_sub o a b) <-> In it (a (sub o 0)) /\ ~ In it (b (sub o 1)).
Proof.
  rewrite <- not_in_true, <- filter_In. split; apply Permutation_in; [symmetry|]; apply corr_sub_perm.
Qed.
Lemma corr_sub_assign_eq o l b : corr_sub_assign o l b = corr_sub o (synth l) b.
Proof. reflexivity. Qed.
Lemma corr_sub_strict o l b : ordered item_lt l -> ordered item_lt (corr_sub o (synth l) b).
Proof.
  intros H. apply ordered_strict; [apply corr_sub_ordered|].
  eapply Permutation_NoDup; [apply corr_sub_perm|]. apply NoDup_filter. apply ordered_lt_NoDup, H.
Qed.

(** ** builder *)
Lemma built_spec t P : built t P -> ordered item_lt (table_items t) /\ forall it, In it (table_items t) <-> P it.
Proof.
  induction 1 as [|o t P c Q H [IH1 IH2] HQ|o t P c Q H [IH1 IH2] HQ].
  - split; [exact I|]. intros it. simpl. tauto.
  - unfold table_items, table_add in *. cbn [t_corr] in *. rewrite corr_add_assign_usort. split; [apply usort_strict|].
    intros it. rewrite usort_In, in_app_iff, IH2, (HQ (sub o 1) it). reflexivity.
  - unfold table_items, table_remove in *. cbn [t_corr] in *. rewrite corr_sub_assign_eq. split; [apply corr_sub_strict, IH1|].
    intros it. rewrite corr_sub_In. unfold synth. rewrite IH2, (HQ (sub o 1) it). reflexivity.
Qed.

(** ** chains *)
Lemma add_chain_usort_gen l : forall o k acc,
  l <> [] -> Forall (fun c : corr => forall o o', c o = c o') l -> (forall o o', acc o = acc o') ->
  add_chain o k acc l = usort (acc o ++ concat (map (fun c : corr => c o) l)).
Proof.
  induction l as [|c l IH]; intros o k acc Hne Hc Ha; [congruence|].
  inversion Hc as [|? ? Hc1 Hc2]; subst. cbn [add_chain map concat].
  destruct l as [|c' l].
  - cbn [add_chain map concat]. unfold synth. rewrite corr_add_usort, app_nil_r.
    rewrite (Ha _ o), (Hc1 _ o). reflexivity.
  - rewrite IH; [|discriminate|exact Hc2|reflexivity]. unfold synth. apply usort_ext. intros it.
    rewrite !in_app_iff, corr_add_In, (Ha _ o), (Hc1 _ o). tauto.
Qed.
