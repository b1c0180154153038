(** Lemmas behind properties C33-C38. *)
From Verif Require Import Base BaseFacts Utf8 Corr Table Converter ModifierKind ChanomaModel Spec
  TableFacts CorrFacts ConverterProps.

(** ** C33 *)
Lemma C33_lemma o a b :
  ordered item_lt (corr_add o a b) /\
  forall it, In it (corr_add o a b) <-> In it (a (sub o 0)) \/ In it (b (sub o 1)).
Proof. split; [apply corr_add_strict|apply corr_add_In]. Qed.
Lemma C33_algebra_lemma o o' a b c P Q R :
  has_items a P -> has_items b Q -> has_items c R ->
  corr_add o a b = corr_add o' b a /\
  corr_add o (fun x => corr_add x a b) c = corr_add o' a (fun x => corr_add x b c) /\
  corr_add o (fun x => corr_add x a b) b = corr_add o' a b /\
  (ordered item_lt (a (sub o 0)) -> corr_add o a a = a (sub o 0)).
Proof.
  intros Ha Hb Hc. unfold has_items in *. repeat split.
  - apply strict_ext; try apply corr_add_strict. intros it. rewrite !corr_add_In, !Ha, !Hb. tauto.
  - apply strict_ext; try apply corr_add_strict. intros it. rewrite !corr_add_In, !Ha, !Hb, !Hc. tauto.
  - apply strict_ext; try apply corr_add_strict. intros it. rewrite !corr_add_In, !Ha, !Hb. tauto.
  - intros H. apply strict_ext; [apply corr_add_strict|exact H|]. intros it. rewrite !corr_add_In, !Ha. tauto.
Qed.

(** ** C34 *)
Lemma item_eq_dec (a b : item) : {a = b} + {a <> b}.
Proof. decide equality; apply str_eq_dec. Defined.
Lemma C34_lemma o a b :
  ordered item_le (corr_sub o a b) /\
  forall it, count_occ item_eq_dec (corr_sub o a b) it =
     if in_dec item_eq_dec it (b (sub o 1)) then 0 else count_occ item_eq_dec (a (sub o 0)) it.
Proof.
  split; [apply corr_sub_ordered|]. intros it.
  rewrite <- (proj1 (Permutation_count_occ item_eq_dec _ _) (corr_sub_perm o a b) it).
  generalize (a (sub o 0)) as l. generalize (b (sub o 1)) as m. intros m l.
  induction l as [|x l IH]; cbn [filter count_occ].
  - destruct (in_dec item_eq_dec it m); reflexivity.
  - destruct (not_in m x) eqn:E; cbn [count_occ]; rewrite IH.
    + apply not_in_true in E. destruct (item_eq_dec x it) as [->|]; [|reflexivity].
      destruct (in_dec item_eq_dec it m); [contradiction|reflexivity].
    + destruct (item_eq_dec x it) as [->|]; [|reflexivity].
      destruct (in_dec item_eq_dec it m) as [|n]; [reflexivity|]. apply not_in_true in n. congruence.
Qed.
Lemma C34_keeps_lemma o a b f t t' : In (Item f t) (a (sub o 0)) ->
  (forall x, In (Item f x) (b (sub o 1)) -> x = t') -> t <> t' -> In (Item f t) (corr_sub o a b).
Proof. intros H1 H2 H3. apply corr_sub_In. split; [exact H1|]. intros H. apply H3. apply H2. exact H. Qed.

(** ** C35 *)
Lemma C35_unique_lemma t P t' P' : built t P -> built t' P' -> (forall it, P it <-> P' it) -> table_items t = table_items t'.
Proof.
  intros H H' E. destruct (built_spec _ _ H) as [A B], (built_spec _ _ H') as [A' B'].
  apply strict_ext; auto. intros it. rewrite B, B'. apply E.
Qed.

(** ** C36 *)
Lemma ordered_app_lt l1 x l2 : ordered item_lt (l1 ++ x :: l2) ->
  (forall y, In y l1 -> item_lt y x) /\ (forall y, In y l2 -> item_lt x y).
Proof.
  induction l1 as [|z l1 IH]; cbn [app ordered]; intros [H1 H2].
  - rewrite Forall_forall in H1. split; [intros y []|exact H1].
  - destruct (IH H2) as [A B]. split; [|exact B]. intros y [->|Hy]; [|apply A, Hy].
    rewrite Forall_forall in H1. apply H1. apply in_app_iff. right; left; reflexivity.
Qed.
Lemma last_is_greatest l P c t : ordered item_lt l -> (forall it, In it l <-> P it) ->
  (last_match l c t <-> greatest_match P c t).
Proof.
  intros Ho HP. split.
  - intros (l1 & it & l2 & E & B1 & B2 & F). exists it. split; [apply HP; rewrite E; apply in_app_iff; right; left; reflexivity|].
    repeat split; auto. intros it' Hi Hb. apply HP in Hi. rewrite E in Hi, Ho.
    destruct (ordered_app_lt _ _ _ Ho) as [A _].
    apply in_app_iff in Hi. destruct Hi as [Hi|[Hi|Hi]].
    + right. apply A, Hi.
    + left. congruence.
    + rewrite Forall_forall in F. destruct (F it' Hi Hb).
  - intros (it & Hp & B1 & B2 & G). apply HP in Hp. apply in_split in Hp. destruct Hp as (l1 & l2 & E).
    exists l1, it, l2. repeat split; auto. apply Forall_forall. intros it' Hi Hb.
    rewrite E in Ho. destruct (ordered_app_lt _ _ _ Ho) as [_ B]. specialize (B it' Hi).
    assert (Hle : item_le it' it). { apply G; [apply HP; rewrite E; apply in_app_iff; right; right; exact Hi|exact Hb]. }
    destruct Hle as [->|Hl]; [exact (item_lt_irrefl _ B)|]. exact (item_lt_irrefl _ (item_lt_trans _ _ _ B Hl)).
Qed.
Lemma pointwise_iff (R R' : char -> char -> Prop) s out : (forall c t, R c t <-> R' c t) -> pointwise R s out -> pointwise R' s out.
Proof.
  intros H P. unfold pointwise in *. induction P as [|c d s out HP P IH]; constructor; [|exact IH].
  destruct HP as [A|[A B]].
  - left. apply H, A.
  - right. split; [exact A|]. intros t Ht. apply (B t). apply H, Ht.
Qed.
Lemma C36_lemma dbg o t P c s : built t P -> chanoma_from_table t = Ok c ->
  exists out, normalize dbg o c s = Ok out /\ pointwise (greatest_match P) s out.
Proof.
  intros H Hc. destruct (C01_table dbg o t c s Hc) as (out & E & Hp). exists out. split; [exact E|].
  destruct (built_spec _ _ H) as [A B]. eapply pointwise_iff; [|exact Hp]. intros x y. apply last_is_greatest; assumption.
Qed.
Lemma chanoma_from_table_items t t' : table_items t = table_items t' -> chanoma_from_table t = chanoma_from_table t'.
Proof.
  intros H. unfold chanoma_from_table. rewrite !from_tables_eq. unfold tables_items. cbn [map concat].
  unfold table_items in H. rewrite H. reflexivity.
Qed.
Lemma C36_history_lemma t P t' P' : built t P -> built t' P' -> (forall it, P it <-> P' it) ->
  chanoma_from_table t = chanoma_from_table t'.
Proof. intros H H' E. apply chanoma_from_table_items. eapply C35_unique_lemma; eassumption. Qed.

(** ** C37 *)
Lemma items_eqb_eq a b : items_eqb a b = true <-> a = b.
Proof.
  revert b; induction a as [|x a IH]; intros [|y b]; simpl; split; intros H; try easy.
  - apply andb_true_iff in H. destruct H as [H1 H2]. apply item_eqb_eq in H1. apply IH in H2. congruence.
  - inversion H; subst. apply andb_true_iff. split; [apply item_eqb_eq; reflexivity|apply IH; reflexivity].
Qed.
Lemma C37_lemma o a b : corr_eqb o a b = true <-> a (sub o 0) = b (sub o 1).
Proof. apply items_eqb_eq. Qed.
Lemma C37_sets_lemma o a b : ordered item_lt (a (sub o 0)) -> ordered item_lt (b (sub o 1)) ->
  (corr_eqb o a b = true <-> forall it, In it (a (sub o 0)) <-> In it (b (sub o 1))).
Proof.
  intros H H'. rewrite C37_lemma. split; [intros ->; reflexivity|]. apply strict_ext; assumption.
Qed.

(** ** C38 *)
Definition keys_ok (m : list (str * list str)) : Prop := ordered lex_lt (map fst m).
Lemma bt_push_keys k v m x : In x (map fst (bt_push k v m)) <-> x = k \/ In x (map fst m).
Proof.
  induction m as [|[k' vs] m IH]; cbn [bt_push map fst In]; [intuition|].
  destruct (str_cmp k k') eqn:E; cbn [map fst In].
  - apply str_cmp_Eq in E. subst. intuition.
  - intuition.
  - rewrite IH. intuition.
Qed.
Lemma bt_push_ordered k v m : keys_ok m -> keys_ok (bt_push k v m).
Proof.
  unfold keys_ok. induction m as [|[k' vs] m IH]; cbn [bt_push map fst ordered]; [auto|].
  intros [H1 H2]. destruct (str_cmp k k') eqn:E; cbn [map fst ordered].
  - auto.
  - apply str_cmp_Lt in E. repeat split; auto. constructor; [exact E|].
    eapply Forall_impl; [|exact H1]. intros z Hz. eapply lex_lt_trans; eassumption.
  - apply str_cmp_Gt in E. split; [|apply IH, H2]. apply Forall_forall. intros z Hz.
    apply bt_push_keys in Hz. destruct Hz as [->|Hz]; [exact E|]. rewrite Forall_forall in H1. apply H1, Hz.
Qed.
Definition group (items : list item) (k : str) : list str :=
  map from (filter (fun it => str_eqb (to it) k) items).
Lemma bt_push_spec k v m items :
  keys_ok m -> (forall k vs, In (k, vs) m <-> vs = group items k /\ vs <> []) ->
  (forall k' vs, In (k', vs) (bt_push k v m) <-> vs = group (items ++ [Item v k]) k' /\ vs <> []).
Proof.
  intros Ho H.
  assert (G : forall k', group (items ++ [Item v k]) k' = group items k' ++ (if str_eqb k k' then [v] else [])).
  { intros k'. unfold group. rewrite filter_app, map_app. cbn [filter to]. destruct (str_eqb k k'); reflexivity. }
  (* membership in bt_push *)
  assert (M : forall k' vs, In (k', vs) (bt_push k v m) <->
     (k' <> k /\ In (k', vs) m) \/
     (k' = k /\ ((exists ws, In (k, ws) m /\ vs = ws ++ [v]) \/ (~ In k (map fst m) /\ vs = [v])))).
  { clear H G. induction m as [|[k0 ws] m IH]; intros k' vs; cbn [bt_push].
    - cbn [In map]. split.
      + intros [E|[]]. inversion E; subst. right. split; [reflexivity|]. right. auto.
      + intros [[_ []]|[-> [(ws & [] & _)|[_ ->]]]]. left; reflexivity.
    - unfold keys_ok in Ho. cbn [map fst ordered] in Ho. destruct Ho as [Ho1 Ho2]. rewrite Forall_forall in Ho1.
      specialize (IH Ho2).
      assert (Hk0 : ~ In k0 (map fst m)) by (intros Hi; exact (lex_lt_irrefl _ (Ho1 _ Hi))).
      destruct (str_cmp k k0) eqn:E.
      + apply str_cmp_Eq in E. subst k0. cbn [In]. split.
        * intros [X|X].
          -- inversion X; subst. right. split; [reflexivity|]. left. exists ws. auto.
          -- left. split; [|right; exact X]. intros ->. apply Hk0. apply (in_map fst) in X. exact X.
        * intros [[Hn [X|X]]|[-> [(us & [X|X] & ->)|[X _]]]].
          -- inversion X; congruence.
          -- right; exact X.
          -- inversion X; subst. left; reflexivity.
          -- exfalso. apply Hk0. apply (in_map fst) in X. exact X.
          -- exfalso. apply X. left; reflexivity.
      + apply str_cmp_Lt in E. cbn [In].
        assert (Hk : ~ In k (map fst ((k0, ws) :: m))).
        { cbn [map fst In]. intros [->|Hi]; [exact (lex_lt_irrefl _ E)|].
          exact (lex_lt_irrefl _ (lex_lt_trans _ _ _ E (Ho1 _ Hi))). }
        split.
        * intros [X|X].
          -- inversion X; subst. right. split; [reflexivity|]. right. auto.
          -- left. split; [|exact X]. intros ->. apply Hk. exact (in_map fst ((k0, ws) :: m) (k, vs) X).
        * intros [[Hn X]|[-> [(us & X & ->)|[_ ->]]]].
          -- right; exact X.
          -- exfalso. apply Hk. exact (in_map fst ((k0, ws) :: m) (k, us) X).
          -- left; reflexivity.
      + apply str_cmp_Gt in E. cbn [In map fst]. rewrite IH. split.
        * intros [X|[[Hn X]|[-> [(us & X & ->)|[X ->]]]]].
          -- inversion X; subst. left. split; [intros ->; exact (lex_lt_irrefl _ E)|left; reflexivity].
          -- left. split; [exact Hn|right; exact X].
          -- right. split; [reflexivity|]. left. exists us. auto.
          -- right. split; [reflexivity|]. right. split; [|reflexivity].
             intros [->|Y]; [exact (lex_lt_irrefl _ E)|contradiction].
        * intros [[Hn [X|X]]|[-> [(us & [X|X] & ->)|[X ->]]]].
          -- left; exact X.
          -- right. left. auto.
          -- inversion X; subst. destruct (lex_lt_irrefl _ E).
          -- right. right. split; [reflexivity|]. left. exists us. auto.
          -- right. right. split; [reflexivity|]. right. split; [tauto|reflexivity]. }
  intros k' vs. rewrite M, G. destruct (str_eqb_spec k k') as [->|Hn].
  - split.
    + intros [[X _]|[_ [(ws & X & ->)|[X ->]]]]; [congruence| |].
      * apply H in X. destruct X as [-> _]. split; [reflexivity|]. destruct (group items k'); discriminate.
      * assert (Hg : group items k' = []).
        { destruct (group items k') as [|g r] eqn:Eg; [reflexivity|]. exfalso. apply X.
          assert (Y : In (k', group items k') m) by (apply H; split; [reflexivity|rewrite Eg; discriminate]).
          apply (in_map fst) in Y. exact Y. }
        rewrite Hg. split; [reflexivity|discriminate].
    + intros [-> _]. right. split; [reflexivity|].
      destruct (group items k') as [|g r] eqn:Eg.
      * right. split; [|reflexivity]. intros X. apply in_map_iff in X. destruct X as ([k0 ws] & E & X). cbn in E. subst k0.
        apply H in X. rewrite Eg in X. destruct X as [-> X]. congruence.
      * left. exists (g :: r). split; [|reflexivity]. apply H. rewrite Eg. split; [reflexivity|discriminate].
  - rewrite app_nil_r. rewrite <- H. split.
    + intros [[_ X]|[E _]]; [exact X|congruence].
    + intros X. left. split; [congruence|exact X].
Qed.

Lemma item_map_gen items : keys_ok (item_map items) /\
  forall k vs, In (k, vs) (item_map items) <-> vs = group items k /\ vs <> [].
Proof.
  induction items as [|it items IH] using rev_ind.
  - split; [exact I|]. intros k vs. cbn. split; [intros []|]. intros [-> H]. congruence.
  - destruct IH as [IH1 IH2]. unfold item_map. rewrite fold_left_app. cbn [fold_left].
    change (fold_left _ items []) with (item_map items). split; [apply bt_push_ordered, IH1|].
    pose proof (bt_push_spec (to it) (from it) (item_map items) items IH1 IH2) as B.
    rewrite <- item_eta in B. exact B.
Qed.

Definition flatten (m : list (str * list str)) : list item :=
  flat_map (fun kv => map (fun v => Item v (fst kv)) (snd kv)) m.
Lemma bt_push_flatten k v m : Permutation (flatten (bt_push k v m)) (flatten m ++ [Item v k]).
Proof.
  induction m as [|[k' vs] m IH]; cbn [bt_push]; [reflexivity|].
  destruct (str_cmp k k') eqn:E.
  - apply str_cmp_Eq in E. subst. unfold flatten. cbn [flat_map fst snd]. rewrite map_app, <- !app_assoc.
    apply Permutation_app_head. cbn [map app]. apply Permutation_cons_append.
  - unfold flatten. cbn [flat_map fst snd map app]. apply Permutation_cons_append.
  - unfold flatten in *. cbn [flat_map fst snd]. rewrite <- app_assoc. apply Permutation_app_head. exact IH.
Qed.
Lemma item_map_flatten items : Permutation (flatten (item_map items)) items.
Proof.
  induction items as [|it items IH] using rev_ind; [reflexivity|].
  unfold item_map. rewrite fold_left_app. cbn [fold_left]. change (fold_left _ items []) with (item_map items).
  rewrite bt_push_flatten, <- item_eta. apply Permutation_app_tail. exact IH.
Qed.
Lemma filter_str_eqb k items :
  filter (fun it => str_eqb (to it) k) items = filter (fun it => if str_eq_dec (to it) k then true else false) items.
Proof.
  apply filter_ext. intros it. destruct (str_eq_dec (to it) k) as [H|H].
  - rewrite H. apply str_eqb_refl.
  - destruct (str_eqb_spec (to it) k); [contradiction|reflexivity].
Qed.
Lemma C38_lemma items :
  ordered lex_lt (map fst (item_map items)) /\
  (forall k vs, In (k, vs) (item_map items) <->
     vs = map from (filter (fun it => if str_eq_dec (to it) k then true else false) items) /\ vs <> []) /\
  Permutation (flat_map (fun kv => map (fun v => Item v (fst kv)) (snd kv)) (item_map items)) items.
Proof.
  destruct (item_map_gen items) as [A B]. split; [exact A|]. split; [|apply item_map_flatten].
  intros k vs. rewrite B. unfold group. rewrite filter_str_eqb. reflexivity.
Qed.
