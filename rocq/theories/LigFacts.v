(** Lemmas about the ligature translator. *)
From Verif Require Import Base BaseFacts StrOps Ligature Spec.

Lemma starts_with_prefix p s : starts_with p s = true <-> prefix_of p s.
Proof.
  revert s; induction p as [|x p IH]; intros s; simpl.
  - split; [exists s; reflexivity|reflexivity].
  - destruct s as [|y s]; simpl.
    + split; [discriminate|intros (r & H); discriminate].
    + rewrite andb_true_iff, N.eqb_eq, IH. split.
      * intros (-> & r & ->). exists r. reflexivity.
      * intros (r & H). inversion H; subst. split; [reflexivity|exists r; reflexivity].
Qed.

Lemma replace_scan_skip pat tov k s : replace_scan pat tov k s = replace_scan pat tov 0 (skipn k s).
Proof.
  revert k; induction s as [|x s IH]; intros [|k]; cbn [skipn]; try reflexivity.
  cbn [replace_scan]. apply IH.
Qed.

(** One rule. *)
Definition one (p v : str) : str -> str -> Prop := fun k w => k = p /\ w = v.

Lemma replace_scan_hit p v s : p <> [] -> replace_scan p v 0 (p ++ s) = v ++ replace_scan p v 0 s.
Proof.
  intros Hp. destruct p as [|x p]; [contradiction|].
  assert (E : starts_with (x :: p) ((x :: p) ++ s) = true) by (apply starts_with_prefix; exists s; reflexivity).
  cbn [app]. cbn [app] in E. cbn [replace_scan]. rewrite E. f_equal.
  rewrite replace_scan_skip. cbn [length]. rewrite Nat.sub_succ, Nat.sub_0_r. f_equal.
  rewrite skipn_app, skipn_all, Nat.sub_diag. reflexivity.
Qed.

Lemma replace_scan_miss p v x s : ~ prefix_of p (x :: s) ->
  replace_scan p v 0 (x :: s) = x :: replace_scan p v 0 s.
Proof.
  intros H. cbn [replace_scan].
  destruct (starts_with p (x :: s)) eqn:E; [apply starts_with_prefix in E; contradiction|reflexivity].
Qed.

Lemma replaced_one_scan p v s out : p <> [] -> replaced (one p v) s out -> out = replace_scan p v 0 s.
Proof.
  intros Hp H. induction H as [|k w s out Hk (-> & ->) H IH|x s out Hm H IH].
  - reflexivity.
  - rewrite replace_scan_hit by exact Hp. congruence.
  - rewrite replace_scan_miss by (apply (Hm p v); split; reflexivity). congruence.
Qed.

Lemma scan_replaced_one p v s : p <> [] -> replaced (one p v) s (replace_scan p v 0 s).
Proof.
  intros Hp. remember (length s) as n eqn:Hn. revert s Hn.
  induction n as [n IH] using lt_wf_ind; intros s Hn.
  destruct s as [|x s]; [apply rep_nil|].
  destruct (starts_with p (x :: s)) eqn:E.
  - apply starts_with_prefix in E as (r & E). rewrite E, replace_scan_hit by exact Hp.
    apply rep_hit; [exact Hp|split; reflexivity|].
    apply IH with (length r); [|reflexivity].
    rewrite Hn, E, app_length. destruct p; [contradiction|simpl; lia].
  - assert (Hm : ~ prefix_of p (x :: s)) by (intros H; apply starts_with_prefix in H; congruence).
    rewrite replace_scan_miss by exact Hm. apply rep_miss.
    + intros k w (-> & ->). exact Hm.
    + apply IH with (length s); [subst n; simpl; lia|reflexivity].
Qed.

Lemma replace_spec p v s out : p <> [] -> (replace p v s = out <-> replaced (one p v) s out).
Proof.
  intros Hp. destruct p as [|x p]; [contradiction|]. unfold replace. split.
  - intros <-. apply scan_replaced_one, Hp.
  - intros H. symmetry. apply replaced_one_scan; assumption.
Qed.

Lemma replaced_ext (R R' : str -> str -> Prop) s out :
  (forall k v, R k v <-> R' k v) -> replaced R s out -> replaced R' s out.
Proof.
  intros HR H. induction H as [|k w s out Hk Hr H IH|x s out Hm H IH].
  - apply rep_nil.
  - apply rep_hit; [exact Hk|apply HR, Hr|exact IH].
  - apply rep_miss; [|exact IH]. intros k w Hr. apply (Hm k w), HR, Hr.
Qed.

Lemma replaced_total (R : str -> str -> Prop) :
  (forall s, (exists k v, k <> [] /\ R k v /\ prefix_of k s) \/ forall k v, R k v -> ~ prefix_of k s) ->
  forall s, exists out, replaced R s out.
Proof.
  intros Hdec s. remember (length s) as n eqn:Hn. revert s Hn.
  induction n as [n IH] using lt_wf_ind; intros s Hn.
  destruct s as [|x s]; [exists []; apply rep_nil|].
  destruct (Hdec (x :: s)) as [(k & v & Hk & Hr & r & E)|Hm].
  - destruct (IH (length r)) with r as (out & Ho); [|reflexivity|].
    { rewrite Hn, E, app_length. destruct k; [contradiction|simpl; lia]. }
    rewrite E. exists (v ++ out). apply rep_hit; assumption.
  - destruct (IH (length s)) with s as (out & Ho); [subst n; simpl; lia|reflexivity|].
    exists (x :: out). apply rep_miss; assumption.
Qed.

Lemma prefix_comparable (a b s : str) : prefix_of a s -> prefix_of b s ->
  prefix_of a b \/ prefix_of b a.
Proof.
  revert b s; induction a as [|x a IH]; intros b s (r & E) (r' & E').
  - left. exists b. reflexivity.
  - destruct b as [|y b]; [right; exists (x :: a); reflexivity|].
    subst s. inversion E' as [[E1 E2]]. subst y.
    destruct (IH b (a ++ r)) as [(q & ->)|(q & ->)].
    + exists r; reflexivity.
    + exists r'. exact E2.
    + left. exists q. reflexivity.
    + right. exists q. reflexivity.
Qed.

Lemma replaced_nil_inv R out : replaced R [] out -> out = [].
Proof.
  intros H. remember [] as s eqn:E in H. destruct H as [|k v s out Hk _ _|x s out _ _].
  - reflexivity.
  - apply app_eq_nil in E as [E _]. contradiction.
  - discriminate.
Qed.

(** Determinism when no key is a prefix of another one. *)
Lemma replaced_det (R : str -> str -> Prop) :
  (forall k v k' v' s, R k v -> R k' v' -> prefix_of k s -> prefix_of k' s -> k = k' /\ v = v') ->
  forall s out out', replaced R s out -> replaced R s out' -> out = out'.
Proof.
  intros Hf s out out' H. revert out'.
  induction H as [|k w s out Hk Hr H IH|x s out Hm H IH]; intros out' H'.
  - symmetry. exact (replaced_nil_inv _ _ H').
  - inversion H' as [E1 E2|k' v' s' o' Hk' Hr' Hs E1 E2|x' s' o' Hm Hs E1 E2].
    + destruct k; [destruct (Hk eq_refl)|discriminate].
    + destruct (Hf k w k' v' (k ++ s) Hr Hr') as (<- & <-).
      { exists s; reflexivity. }
      { exists s'; symmetry; exact E1. }
      apply app_inv_head in E1. subst s'. f_equal. apply IH, Hs.
    + exfalso. apply (Hm k w Hr). rewrite E1. exists s. reflexivity.
  - inversion H' as [|k' v' s' o' Hk' Hr' Hs E1 E2|x' s' o' Hm' Hs E1 E2]; subst.
    + exfalso. apply (Hm k' v' Hr'). exists s'. symmetry. exact E1.
    + f_equal. apply IH, Hs.
Qed.

(** ** Adding one rule to a simultaneous replacement *)
Section Add.
  Variable R : str -> str -> Prop.
  Variables p v : str.
  Hypothesis Hp : p <> [].
  Hypothesis HRne : forall k w, R k w -> k <> [] /\ w <> [].
  Hypothesis Hfree : forall k w x, R k w -> In x w -> ~ In x p.
  Hypothesis Hover : forall k w, R k w -> never_overlap k p.

  (** A part of the output made of key characters comes from the same characters of the input. *)
  Lemma output_key_part s t : replaced R s t -> forall p0 t2, (forall x, In x p0 -> In x p) -> t = p0 ++ t2 ->
    exists s2, s = p0 ++ s2 /\ replaced R s2 t2.
  Proof.
    intros H. induction H as [|k w s out Hk Hr H IH|x s out Hm H IH]; intros p0 t2 Hsub E.
    - symmetry in E. apply app_eq_nil in E as [-> ->]. exists []. split; [reflexivity|apply rep_nil].
    - destruct p0 as [|y p0].
      + simpl in E. subst t2. exists (k ++ s). split; [reflexivity|]. apply rep_hit; assumption.
      + exfalso. destruct w as [|z w]; [exact (proj2 (HRne _ _ Hr) eq_refl)|].
        inversion E; subst. apply (Hfree _ _ y Hr); [left; reflexivity|]. apply Hsub. left; reflexivity.
    - destruct p0 as [|y p0].
      + simpl in E. subst t2. exists (x :: s). split; [reflexivity|]. apply rep_miss; assumption.
      + inversion E; subst. destruct (IH p0 t2) as (s2 & -> & H2).
        * intros z Hz. apply Hsub. right; exact Hz.
        * reflexivity.
        * exists s2. split; [reflexivity|exact H2].
  Qed.

  (** A key of the new rule in the input is copied by the other rules. *)
  Lemma input_key_kept s t : replaced R s t -> forall pre p0 s2, p = pre ++ p0 -> s = p0 ++ s2 ->
    exists t2, t = p0 ++ t2 /\ replaced R s2 t2.
  Proof.
    intros H. induction H as [|k w s out Hk Hr H IH|x s out Hm H IH]; intros pre p0 s2 Ep E.
    - symmetry in E. apply app_eq_nil in E as [-> ->]. exists []. split; [reflexivity|apply rep_nil].
    - destruct p0 as [|y p0].
      + simpl in E. subst s2. exists (w ++ out). split; [reflexivity|]. apply rep_hit; assumption.
      + exfalso.
        assert (O1 : occurs_at p (pre ++ k ++ s) 0).
        { exists [], s2. rewrite Ep, E, <- app_assoc. split; reflexivity. }
        assert (O2 : occurs_at k (pre ++ k ++ s) (length pre)).
        { exists pre, s. split; reflexivity. }
        assert (L : length p = length pre + S (length p0)).
        { rewrite Ep, app_length. reflexivity. }
        destruct (Hover _ _ Hr _ _ _ O2 O1) as [L'|L'].
        * destruct k; [contradiction|simpl in L'; lia].
        * lia.
    - destruct p0 as [|y p0].
      + simpl in E. subst s2. exists (x :: out). split; [reflexivity|]. apply rep_miss; assumption.
      + injection E as -> E'. destruct (IH (pre ++ [y]) p0 s2) as (t2 & -> & H2).
        * rewrite <- app_assoc. exact Ep.
        * exact E'.
        * exists t2. split; [reflexivity|exact H2].
  Qed.

  Lemma one_skip_value w t1 t' : (forall x, In x w -> ~ In x p) -> replaced (one p v) (w ++ t1) t' ->
    exists t1', t' = w ++ t1' /\ replaced (one p v) t1 t1'.
  Proof.
    revert t'; induction w as [|x w IH]; intros t' Hx H; simpl in *.
    - exists t'. split; [reflexivity|exact H].
    - inversion H as [|k u s o' Hk (-> & ->) Hs E1 E2|x' s o' Hm Hs E1 E2]; subst.
      + exfalso. destruct p as [|y q]; [contradiction|]. inversion E1; subst.
        apply (Hx x); left; reflexivity.
      + destruct (IH o') as (t1' & -> & H1).
        * intros z Hz. apply Hx. right; exact Hz.
        * exact Hs.
        * exists t1'. split; [reflexivity|exact H1].
  Qed.

  Lemma add_rule s t t' : replaced R s t -> replaced (one p v) t t' ->
    replaced (fun k w => R k w \/ one p v k w) s t'.
  Proof.
    remember (length t) as n eqn:Hn. revert s t t' Hn.
    induction n as [n IH] using lt_wf_ind; intros s t t' Hn H H'.
    destruct H as [|k w s1 t1 Hk Hr H1|x s1 t1 Hm H1].
    - rewrite (replaced_nil_inv _ _ H'). apply rep_nil.
    - apply one_skip_value in H'; [|intros x Hx; apply (Hfree _ _ _ Hr Hx)].
      destruct H' as (t1' & -> & H1'). apply rep_hit; [exact Hk|left; exact Hr|].
      apply (IH (length t1)) with t1; [|reflexivity|exact H1|exact H1'].
      subst n. rewrite app_length. destruct w; [destruct (proj2 (HRne _ _ Hr) eq_refl)|simpl; lia].
    - assert (H : replaced R (x :: s1) (x :: t1)) by (apply rep_miss; assumption).
      inversion H' as [|k u t2 o' Hk (-> & ->) Hs E1 E2|x' t2 o' Hm' Hs E1 E2]; subst.
      + symmetry in E1. destruct (output_key_part _ _ H p t2 (fun _ h => h) eq_refl) as (s2 & E & H2).
        rewrite E. apply rep_hit; [exact Hp|right; split; reflexivity|].
        apply (IH (length t2)) with t2; [|reflexivity|exact H2|exact Hs].
        rewrite E1, app_length. destruct p; [contradiction|simpl; lia].
      + apply rep_miss.
        * intros k w [Hr|(-> & ->)]; [exact (Hm k w Hr)|].
          intros (s2 & E). destruct (input_key_kept _ _ H [] p s2 eq_refl E) as (t2 & E2 & _).
          apply (Hm' p v); [split; reflexivity|]. exists t2. exact E2.
        * apply (IH (length t1)) with t1; [simpl; lia|reflexivity|exact H1|exact Hs].
  Qed.
End Add.

(** ** Whole maps *)
Definition rules (m : list (str * str)) : str -> str -> Prop := fun k v => In (k, v) m.

Lemma replaced_none s : replaced (rules []) s s.
Proof. induction s as [|x s IH]; [apply rep_nil|]. apply rep_miss; [intros k v []|exact IH]. Qed.

Lemma non_interfering_perm m m' : Permutation m m' -> non_interfering m -> non_interfering m'.
Proof.
  intros HP (H1 & H2 & H3). pose proof (Permutation_sym HP) as HP'.
  repeat split.
  - intros ->; apply (proj1 (H1 [] v (Permutation_in _ HP' H))). reflexivity.
  - intros ->; apply (proj2 (H1 k [] (Permutation_in _ HP' H))). reflexivity.
  - intros k v k' v' A B. apply (H2 k v k' v'); eapply Permutation_in; eassumption.
  - intros k v k' v' x A B. apply (H3 k v k' v'); eapply Permutation_in; eassumption.
Qed.

Lemma fold_replaced done m s t :
  NoDup (map fst (done ++ m)) -> non_interfering (done ++ m) ->
  replaced (rules done) s t ->
  replaced (rules (done ++ m)) s (fold_left (fun text ft => replace (fst ft) (snd ft) text) m t).
Proof.
  revert done t; induction m as [|[p v] m IH]; intros done t Hnd Hni H; cbn [fold_left fst snd].
  - rewrite app_nil_r. exact H.
  - assert (E : done ++ (p, v) :: m = (done ++ [(p, v)]) ++ m) by (rewrite <- app_assoc; reflexivity).
    rewrite E in *. apply IH; [exact Hnd|exact Hni|].
    destruct Hni as (N1 & N2 & N3).
    assert (Hpv : In (p, v) ((done ++ [(p, v)]) ++ m)) by (rewrite !in_app_iff; left; right; left; reflexivity).
    assert (Hd : forall k w, In (k, w) done -> In (k, w) ((done ++ [(p, v)]) ++ m)).
    { intros k w Hk. rewrite !in_app_iff. left; left; exact Hk. }
    assert (Hp : p <> []) by exact (proj1 (N1 _ _ Hpv)).
    assert (Hneq : forall k w, In (k, w) done -> k <> p).
    { intros k w Hk ->. rewrite !map_app in Hnd. simpl in Hnd.
      rewrite <- app_assoc in Hnd. simpl in Hnd. apply NoDup_remove_2 in Hnd. apply Hnd.
      rewrite in_app_iff. left. exact (in_map fst _ _ Hk). }
    apply replaced_ext with (fun k w => rules done k w \/ one p v k w).
    + intros k w. unfold rules, one. rewrite in_app_iff. cbn [In]. split.
      * intros [Hd'|(-> & ->)]; [left; exact Hd'|right; left; reflexivity].
      * intros [Hd'|[Hd'|[]]]; [left; exact Hd'|injection Hd' as -> ->; right; split; reflexivity].
    + apply add_rule with t.
      * exact Hp.
      * intros k w Hr. apply N1, Hd, Hr.
      * intros k w x Hr Hx. exact (N3 k w p v x (Hd _ _ Hr) Hpv Hx).
      * intros k w Hr. apply (N2 k w p v); [apply Hd, Hr|exact Hpv|apply (Hneq _ _ Hr)].
      * exact H.
      * apply replace_spec; [exact Hp|reflexivity].
Qed.

Lemma lig_replaced o m s : NoDup (map fst m) -> non_interfering m ->
  replaced (rules m) s (lig_modify o m s).
Proof.
  intros Hnd Hni. pose proof (hash_iter_perm o m) as HP. unfold lig_modify.
  apply replaced_ext with (rules (hash_iter o m)).
  { intros k v. unfold rules. split; intros H; eapply Permutation_in; try eassumption. now symmetry. }
  apply (fold_replaced [] (hash_iter o m) s s); simpl.
  - eapply Permutation_NoDup; [apply Permutation_map, HP|exact Hnd].
  - eapply non_interfering_perm; eassumption.
  - apply replaced_none.
Qed.

Lemma rules_det m : NoDup (map fst m) -> non_interfering m ->
  forall k v k' v' s, rules m k v -> rules m k' v' -> prefix_of k s -> prefix_of k' s -> k = k' /\ v = v'.
Proof.
  intros Hnd (N1 & N2 & N3) k v k' v' s Hk Hk' (r & E) (r' & E').
  destruct (str_eq_dec k k') as [->|Hne].
  - split; [reflexivity|].
    apply (hm_In_get str_eqb str_eqb_eq) in Hk; [|exact Hnd].
    apply (hm_In_get str_eqb str_eqb_eq) in Hk'; [|exact Hnd]. congruence.
  - exfalso. destruct (N1 _ _ Hk) as [K1 _]. destruct (N1 _ _ Hk') as [K2 _].
    destruct (N2 _ _ _ _ Hk Hk' Hne s 0 0) as [L|L].
    + exists [], r. split; [exact E|reflexivity].
    + exists [], r'. split; [exact E'|reflexivity].
    + destruct k; [contradiction|simpl in L; lia].
    + destruct k'; [contradiction|simpl in L; lia].
Qed.

Lemma lig_modify_iff o m s out : NoDup (map fst m) -> non_interfering m ->
  (lig_modify o m s = out <-> replaced (rules m) s out).
Proof.
  intros Hnd Hni. split.
  - intros <-. apply lig_replaced; assumption.
  - intros H. eapply replaced_det; [apply rules_det; eassumption|apply lig_replaced; assumption|exact H].
Qed.

(** No key is left. *)
Lemma replaced_no_key m s out : non_interfering m -> replaced (rules m) s out ->
  forall k v, In (k, v) m -> ~ occurs k out.
Proof.
  intros (N1 & N2 & N3) H k v Hk.
  assert (G : forall a b, out = a ++ k ++ b -> False).
  { induction H as [|q w s out Hq Hr H IH|x s out Hm H IH]; intros a b E.
    - symmetry in E. apply app_eq_nil in E as [_ E]. apply app_eq_nil in E as [E _].
      exact (proj1 (N1 _ _ Hk) E).
    - destruct (le_lt_dec (length w) (length a)) as [L|L].
      + apply (IH (skipn (length w) a) b).
        assert (E' := f_equal (skipn (length w)) E).
        rewrite skipn_app, skipn_all, Nat.sub_diag in E'. simpl in E'.
        rewrite skipn_app in E'. replace (length w - length a) with 0 in E' by lia. exact E'.
      + assert (Ex : nth_error (w ++ out) (length a) = nth_error (a ++ k ++ b) (length a)) by (rewrite E; reflexivity).
        rewrite nth_error_app1 in Ex by exact L. rewrite nth_error_app2, Nat.sub_diag in Ex by lia.
        destruct k as [|y k]; [exact (proj1 (N1 _ _ Hk) eq_refl)|]. simpl in Ex.
        apply nth_error_In in Ex. apply (N3 _ _ _ _ y Hr Hk Ex). left; reflexivity.
    - destruct a as [|y a].
      + simpl in E.
        assert (HH : replaced (rules m) (x :: s) (x :: out)) by (apply rep_miss; assumption).
        destruct (output_key_part (rules m) k) with (x :: s) (x :: out) k b as (s2 & E2 & _).
        * intros q w Hr. apply N1, Hr.
        * intros q w z Hr Hz. exact (N3 _ _ _ _ z Hr Hk Hz).
        * exact HH.
        * intros z Hz; exact Hz.
        * exact E.
        * apply (Hm k v Hk). exists s2. exact E2.
      + inversion E; subst. apply (IH a b). reflexivity. }
  intros (i & a & b & E & _). exact (G a b E).
Qed.
