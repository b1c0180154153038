(** Lemmas for the properties of YAML modifiers (C43). *)
From Verif Require Import Base BaseFacts StrOps Corr Table Charset Converter Eliminator Reducer Ligature Neologdn ModifierKind Yaml
  File ChanomaModel Spec ConverterFacts TableFacts ConverterProps SimpleFacts SimpleProps CharsetFacts LigFacts PropsLig
  NeoFacts NeoProps PropsConverter PropsNeo PropsPipeline FileSpec FileProps.

Definition realises (m : modifier) (e : effect) : Prop := constructible m /\ forall s out, result [m] s out <-> e s out.

(** ** Converter *)
Lemma str_first_iff v c : str_first v = Ok c <-> exists r, v = YStr (c :: r).
Proof.
  unfold str_first. destruct v as [| | |s|l|l]; cbn; try (split; [discriminate|intros (r & E); discriminate]).
  destruct s as [|x s]; cbn; (split; [|intros (r & E)]); try discriminate.
  - intros E. injection E as <-. exists s. reflexivity.
  - injection E as -> ->. reflexivity.
Qed.
Lemma str_first_cases v : (exists c, str_first v = Ok c) \/ str_first v = Panic.
Proof. unfold str_first. destruct v as [| | |[|x s]|l|l]; cbn; eauto. Qed.
Definition conv_entry (kv : yval * yval) : outcome (char * char) :=
  k <- str_first (fst kv) ;; x <- str_first (snd kv) ;; Ok (k, x).
Lemma conv_entry_cases kv : (exists p, conv_entry kv = Ok p) \/ conv_entry kv = Panic.
Proof.
  unfold conv_entry. destruct (str_first_cases (fst kv)) as [(c & ->)| ->]; cbn; [|auto].
  destruct (str_first_cases (snd kv)) as [(d & ->)| ->]; cbn; eauto.
Qed.
Definition item_entry (it : item) : yval * yval := (YStr (from it), YStr (to it)).
Lemma conv_entries_iff l kvs : traverse conv_entry l = Ok kvs <->
  exists items, l = map item_entry items /\ Forall (fun it => from it <> [] /\ to it <> []) items /\ kvs = pairs_of items.
Proof.
  rewrite traverse_Ok_inv. split.
  - induction 1 as [|[k v] [a b] l kvs H _ (items & -> & F & ->)].
    + exists []. repeat split; constructor.
    + unfold conv_entry in H. apply bind_ok in H as (a' & H1 & H). apply bind_ok in H as (b' & H2 & H). injection H as -> ->.
      apply str_first_iff in H1 as (r & H1). apply str_first_iff in H2 as (r' & H2). cbn [fst snd] in *. subst k v.
      exists (Item (a :: r) (b :: r') :: items). repeat split. constructor; [|exact F]. cbn. split; discriminate.
  - intros (items & -> & F & ->). induction F as [|[f t] items [H1 H2] _ IH]; cbn [map]; [constructor|].
    cbn [from to] in *. destruct f as [|a f]; [contradiction|]. destruct t as [|b t]; [contradiction|].
    change (pairs_of (Item (a :: f) (b :: t) :: items)) with ((a, b) :: pairs_of items). constructor; [reflexivity|exact IH].
Qed.
Lemma conv_collect_rel items : Forall (fun it => from it <> [] /\ to it <> []) items ->
  forall c t, conv_get (hm_collect N.eqb (pairs_of items)) c = Some t <-> last_match items c t.
Proof.
  intros F c t. set (tb := Table items OriginNew).
  assert (E : from_tables [tb] = Ok (hm_collect N.eqb (pairs_of items))).
  { rewrite from_tables_eq, tables_items_one. cbn [t_corr tb]. 
    replace (forallb nonempty_item items) with true; [reflexivity|]. symmetry. apply forallb_forall. intros it Hi.
    rewrite Forall_forall in F. destruct (F it Hi). apply nonempty_item_true. auto. }
  rewrite <- (table_rel [tb] _ c t E), tables_items_one. reflexivity.
Qed.
Lemma realises_conv cc R : (forall c t, conv_get cc c = Some t <-> R c t) -> realises (MConv cc) (pointwise R).
Proof.
  intros HR. split; [discriminate|]. intros s out. unfold result. split.
  - intros (o & H). rewrite normalize_conv in H. injection H as <-. apply conv1_rel, HR.
  - intros H. exists no_order. rewrite normalize_conv. f_equal. symmetry. apply (conv1_rel_unique _ _ HR), H.
Qed.

(** ** Eliminator *)
Lemma firsts_iff l cs : traverse str_first l = Ok cs <->
  exists ss, l = map YStr ss /\ Forall (fun x => x <> []) ss /\ cs = map (hd 0%N) ss.
Proof.
  rewrite traverse_Ok_inv. split.
  - induction 1 as [|v c l cs H _ (ss & -> & F & ->)].
    + exists []. repeat split; constructor.
    + apply str_first_iff in H as (r & ->). exists ((c :: r) :: ss). repeat split. constructor; [discriminate|exact F].
  - intros (ss & -> & F & ->). induction F as [|x ss Hx _ IH]; cbn [map]; constructor; [|exact IH].
    destruct x; [contradiction|reflexivity].
Qed.
Lemma removed_filter (P : char -> Prop) (f : char -> bool) : (forall c, f c = false <-> P c) ->
  forall s out, removed P s out <-> out = filter f s.
Proof.
  intros H s. induction s as [|c s IH]; intros out; cbn [filter].
  - split; [intros R; inversion R; reflexivity|intros ->; constructor].
  - destruct (f c) eqn:E.
    + assert (NP : ~ P c) by (rewrite <- H; congruence). split.
      * intros R. inversion R; subst; [f_equal; apply IH; assumption|contradiction].
      * intros ->. constructor; [exact NP|]. apply IH. reflexivity.
    + apply H in E. split.
      * intros R. inversion R; subst; [contradiction|apply IH; assumption].
      * intros ->. apply rem_drop; [exact E|]. apply IH. reflexivity.
Qed.
Lemma realises_elim ss : Forall (fun x => x <> []) ss ->
  realises (MElim (elim_from_chars (map (hd 0%N) ss))) (removed (fun c => exists x, In x ss /\ begins x c)).
Proof.
  intros F. split; [discriminate|]. intros s out.
  rewrite (removed_filter _ (fun c => if in_dec N.eq_dec c (map (hd 0%N) ss) then false else true)).
  - unfold result. split.
    + intros (o & H). rewrite C10_exact_lemma in H. apply Ok_inj in H; symmetry; exact H.
    + intros ->. exists no_order. apply C10_exact_lemma.
  - intros c. destruct (in_dec N.eq_dec c (map (hd 0%N) ss)) as [Hi|Hn].
    + split; [intros _|reflexivity]. apply in_map_iff in Hi as (x & <- & Hx). exists x. split; [exact Hx|].
      rewrite Forall_forall in F. specialize (F x Hx). destruct x as [|y x]; [contradiction|]. exists x. reflexivity.
    + split; [discriminate|]. intros (x & Hx & r & ->). exfalso. apply Hn. apply in_map_iff. exists (c :: r). auto.
Qed.

(** ** Ligatures *)
Definition lig_entry (kv : yval * yval) : outcome (str * str) :=
  k <- unwrap (as_str (fst kv)) ;; x <- unwrap (as_str (snd kv)) ;; Ok (k, x).
Lemma lig_entry_cases kv : (exists p, lig_entry kv = Ok p) \/ lig_entry kv = Panic.
Proof.
  unfold lig_entry. destruct (as_str (fst kv)); cbn; [|auto]. destruct (as_str (snd kv)); cbn; eauto.
Qed.
Definition str_entry (kv : str * str) : yval * yval := (YStr (fst kv), YStr (snd kv)).
Lemma lig_entries_iff l kvs : traverse lig_entry l = Ok kvs <-> l = map str_entry kvs.
Proof.
  rewrite traverse_Ok_inv. split.
  - induction 1 as [|[k v] [a b] l kvs H _ ->]; [reflexivity|].
    unfold lig_entry in H. cbn [fst snd] in H. destruct k; try discriminate. destruct v; try discriminate.
    cbn in H. injection H as -> ->. reflexivity.
  - intros ->. induction kvs as [|[a b] kvs IH]; cbn [map]; constructor; [reflexivity|exact IH].
Qed.
Lemma hm_get_rev_last (k v : str) l : hm_get str_eqb k (rev l) = Some v <->
  exists l1 l2, l = l1 ++ (k, v) :: l2 /\ ~ In k (map fst l2).
Proof.
  induction l as [|[a b] l IH] using rev_ind.
  - cbn. split; [discriminate|]. intros (l1 & l2 & E & _). destruct l1; discriminate.
  - rewrite rev_app_distr. cbn [rev app hm_get]. destruct (str_eqb_spec k a) as [->|Hn].
    + split.
      * intros E. injection E as ->. exists l, []. split; [reflexivity|]. intros [].
      * intros (l1 & l2 & E & N). destruct l2 as [|x l2 _] using rev_ind.
        { apply app_inj_tail in E as [_ E]. injection E as ->. reflexivity. }
        { exfalso. change (l1 ++ (a, v) :: l2 ++ [x]) with (l1 ++ ((a, v) :: l2) ++ [x]) in E. rewrite app_assoc in E.
          apply app_inj_tail in E as [_ <-]. apply N. rewrite map_app. apply in_or_app. right. left. reflexivity. }
    + rewrite IH. split.
      * intros (l1 & l2 & -> & N). exists l1, (l2 ++ [(a, b)]). rewrite <- app_assoc. split; [reflexivity|].
        rewrite map_app. intros H. apply in_app_or in H as [H|[H|[]]]; [contradiction|cbn in H; congruence].
      * intros (l1 & l2 & E & N). destruct l2 as [|x l2 _] using rev_ind.
        { apply app_inj_tail in E as [_ E]. congruence. }
        { change (l1 ++ (k, v) :: l2 ++ [x]) with (l1 ++ ((k, v) :: l2) ++ [x]) in E. rewrite app_assoc in E.
          apply app_inj_tail in E as [-> _]. exists l1, l2. split; [reflexivity|]. intros H. apply N. rewrite map_app.
          apply in_or_app. left; exact H. }
Qed.
Lemma collect_bindings l : last_bindings l (hm_collect str_eqb l).
Proof.
  split; [apply (hm_collect_nodup str_eqb str_eqb_eq)|]. intros k v. rewrite <- hm_get_rev_last.
  rewrite <- (hm_get_collect str_eqb str_eqb_eq). split.
  - intros H. apply (hm_In_get str_eqb str_eqb_eq); [apply (hm_collect_nodup str_eqb str_eqb_eq)|exact H].
  - intros H. apply (hm_get_In str_eqb str_eqb_eq), H.
Qed.
Lemma bindings_perm l m m' : last_bindings l m -> last_bindings l m' -> Permutation m m'.
Proof.
  intros [N H] [N' H']. apply NoDup_Permutation; [eapply NoDup_map_inv; exact N|eapply NoDup_map_inv; exact N'|].
  intros [k v]. rewrite H, H'. reflexivity.
Qed.
Lemma perm_bindings l m m' : last_bindings l m -> Permutation m m' -> last_bindings l m'.
Proof.
  intros [N H] P. split.
  - eapply Permutation_NoDup; [apply Permutation_map, P|exact N].
  - intros k v. rewrite <- H. split; apply Permutation_in; [symmetry|]; exact P.
Qed.
Lemma realises_lig l :
  realises (MLig (hm_collect str_eqb l)) (fun s out => exists m, last_bindings l m /\ applied_in_turn m s out).
Proof.
  split; [discriminate|]. intros s out. unfold result. rewrite C22_exact_lemma. split.
  - intros (m & P & A). exists m. split; [|exact A]. eapply perm_bindings; [apply collect_bindings|exact P].
  - intros (m & B & A). exists m. split; [|exact A]. apply (bindings_perm l); [apply collect_bindings|exact B].
Qed.

(** ** The others *)
Lemma realises_red c : realises (MRed c) (collapsed c).
Proof.
  split; [discriminate|]. intros s out. unfold result. split.
  - intros (o & H). apply C11_exact_lemma in H. exact H.
  - intros H. exists no_order. apply C11_exact_lemma, H.
Qed.
Lemma realises_dot : realises MDot (undotted None).
Proof.
  split; [discriminate|]. intros s out. unfold result. split.
  - intros (o & H). apply C15_lemma in H. exact H.
  - intros H. exists no_order. apply C15_lemma, H.
Qed.
Lemma realises_trim : realises MTrim trimmed.
Proof.
  split; [discriminate|]. intros s out. unfold result. split.
  - intros (o & H). apply C17_lemma in H. exact H.
  - intros H. exists no_order. apply C17_lemma, H.
Qed.
Lemma realises_neo : realises (MNeo NEO) neologdn_result.
Proof.
  split.
  - intros n E. exists no_order. rewrite neologdn_new_eq. congruence.
  - intros s out. unfold result. rewrite <- neo_text_result. split.
    + intros (o' & H). rewrite normalize_neo in H. apply Ok_inj in H. exact H.
    + intros H. exists no_order. rewrite normalize_neo. f_equal. exact H.
Qed.

(** ** One entry *)
Lemma null_cases v : v = YNull \/ (v <> YNull /\ is_null v = false).
Proof. destruct v; auto; right; split; (discriminate || reflexivity). Qed.
Ltac name_is H := first [subst; vm_compute; reflexivity | exact H].
Lemma known_name name : In name modifier_names \/
  (~ In name modifier_names /\ forall o v, modifier_from_yaml o (YStr name) v =
     Err (ModifierKindParseError (lit "specified key " ++ name ++ lit " does not exists."))).
Proof.
  unfold modifier_names. unfold modifier_from_yaml. cbn [as_str unwrap bind In].
  repeat match goal with |- context [str_eqb name ?x] => destruct (str_eqb_spec name x) as [?|?]; [left; auto 10|] end.
  right. split; [|reflexivity]. intuition congruence.
Qed.
Lemma effect_name k v e : entry_effect (k, v) e -> exists name, k = YStr name /\ In name modifier_names.
Proof. intros H. inversion H; subst; eexists; (split; [reflexivity|cbn; auto 10]). Qed.

(** Exact outcome of one entry. *)
Lemma entry_outcome o k v :
  (exists m e, modifier_from_yaml o k v = Ok m /\ entry_effect (k, v) e /\ realises m e) \/
  (exists er, modifier_from_yaml o k v = Err er /\ entry_error (k, v) er /\ forall e, ~ entry_effect (k, v) e) \/
  (modifier_from_yaml o k v = Panic /\ (forall er, ~ entry_error (k, v) er) /\ forall e, ~ entry_effect (k, v) e).
Proof.
  destruct k as [| | |name|l|l];
    try (right; right; split; [reflexivity|split; [intros er H; inversion H|intros e H; inversion H]]).
  destruct (known_name name) as [Hk|[Hk Hu]].
  2: { right; left. eexists. split; [apply Hu|]. split; [constructor; exact Hk|].
       intros e H. apply effect_name in H as (n & E & Hi). injection E as <-. contradiction. }
  unfold modifier_names in Hk. cbn [In] in Hk.
  destruct Hk as [<-|[<-|[<-|[<-|[<-|[<-|[<-|[]]]]]]]].
  - (* converter *)
    change (modifier_from_yaml o _ v) with (x <- conv_from_yaml v ;; Ok (MConv x)). unfold conv_from_yaml.
    assert (NE : forall er, ~ entry_error (YStr (lit "character_converter"), v) er).
    { intros er H. inversion H as [n v' Hn|n v' Hn]; subst; [apply Hn; cbn; auto 10|]. cbn in Hn. intuition discriminate. }
    destruct v as [| | |s|l|l]; cbn [as_mapping unwrap bind];
      try (right; right; split; [reflexivity|split; [exact NE|intros e H; inversion H]]).
    change (traverse _ l) with (traverse conv_entry l).
    destruct (traverse_cases conv_entry l conv_entry_cases) as [(kvs & E)|E]; rewrite E; cbn [bind].
    + apply conv_entries_iff in E as (items & -> & F & ->). left. eexists. eexists. split; [reflexivity|].
      split; [apply ee_converter, F|]. apply realises_conv, conv_collect_rel, F.
    + right; right. split; [reflexivity|]. split; [exact NE|]. intros e H. inversion H; subst.
      assert (E' : traverse conv_entry (map item_entry items) = Ok (pairs_of items)).
      { apply conv_entries_iff. exists items. auto. }
      unfold item_entry in E'. rewrite E' in E. discriminate.
  - (* eliminator *)
    change (modifier_from_yaml o _ v) with (x <- elim_from_yaml v ;; Ok (MElim x)). unfold elim_from_yaml.
    assert (NE : forall er, ~ entry_error (YStr (lit "character_eliminator"), v) er).
    { intros er H. inversion H as [n v' Hn|n v' Hn]; subst; [apply Hn; cbn; auto 10|]. cbn in Hn. intuition discriminate. }
    destruct v as [| | |s|l|l]; cbn [as_sequence unwrap bind];
      try (right; right; split; [reflexivity|split; [exact NE|intros e H; inversion H]]).
    destruct (traverse_cases str_first l str_first_cases) as [(cs & E)|E]; rewrite E; cbn [bind].
    + apply firsts_iff in E as (ss & -> & F & ->). left. eexists. eexists. split; [reflexivity|].
      split; [apply ee_eliminator, F|]. apply realises_elim, F.
    + right; right. split; [reflexivity|]. split; [exact NE|]. intros e H. inversion H; subst.
      assert (E' : traverse str_first (map YStr ss) = Ok (map (hd 0%N) ss)).
      { apply firsts_iff. exists ss. auto. }
      rewrite E' in E. discriminate.
  - (* reducer *)
    change (modifier_from_yaml o _ v) with (x <- red_from_yaml v ;; Ok (MRed x)). unfold red_from_yaml.
    assert (NE : forall er, ~ entry_error (YStr (lit "consecutive_character_reducer"), v) er).
    { intros er H. inversion H as [n v' Hn|n v' Hn]; subst; [apply Hn; cbn; auto 10|]. cbn in Hn. intuition discriminate. }
    destruct v as [| | |s|l|l]; cbn [as_str unwrap bind];
      try (right; right; split; [reflexivity|split; [exact NE|intros e H; inversion H]]).
    destruct s as [|c s]; cbn.
    + right; right; split; [reflexivity|split; [exact NE|intros e H; inversion H]].
    + left. eexists. eexists. split; [reflexivity|]. split; [apply ee_reducer|apply realises_red].
  - (* ligatures *)
    change (modifier_from_yaml o _ v) with (x <- lig_from_yaml v ;; Ok (MLig x)). unfold lig_from_yaml.
    assert (NE : forall er, ~ entry_error (YStr (lit "ligature_translator"), v) er).
    { intros er H. inversion H as [n v' Hn|n v' Hn]; subst; [apply Hn; cbn; auto 10|]. cbn in Hn. intuition discriminate. }
    destruct v as [| | |s|l|l]; cbn [as_mapping unwrap bind];
      try (right; right; split; [reflexivity|split; [exact NE|intros e H; inversion H]]).
    change (traverse _ l) with (traverse lig_entry l).
    destruct (traverse_cases lig_entry l lig_entry_cases) as [(kvs & E)|E]; rewrite E; cbn [bind].
    + apply lig_entries_iff in E as ->. left. eexists. eexists. split; [reflexivity|].
      split; [apply ee_ligature|apply realises_lig].
    + right; right. split; [reflexivity|]. split; [exact NE|]. intros e H. inversion H; subst.
      assert (E' : traverse lig_entry (map str_entry l0) = Ok l0) by (apply lig_entries_iff; reflexivity).
      unfold str_entry in E'. rewrite E' in E. discriminate.
  - (* dotted *)
    change (modifier_from_yaml o _ v) with (null_only (Ok MDot) v). unfold null_only.
    destruct (null_cases v) as [->|[Hn E]].
    + left. eexists. eexists. split; [reflexivity|]. split; [apply ee_dotted|apply realises_dot].
    + rewrite E. right; left. eexists. split; [reflexivity|]. split; [apply er_value; [cbn; auto|exact Hn]|].
      intros e H. inversion H; subst. contradiction.
  - (* trim *)
    change (modifier_from_yaml o _ v) with (null_only (Ok MTrim) v). unfold null_only.
    destruct (null_cases v) as [->|[Hn E]].
    + left. eexists. eexists. split; [reflexivity|]. split; [apply ee_trim|apply realises_trim].
    + rewrite E. right; left. eexists. split; [reflexivity|]. split; [apply er_value; [cbn; auto|exact Hn]|].
      intros e H. inversion H; subst. contradiction.
  - (* neologdn *)
    change (modifier_from_yaml o _ v) with (x <- null_only (neologdn_new o) v ;; Ok (MNeo x)). unfold null_only.
    destruct (null_cases v) as [->|[Hn E]].
    + left. exists (MNeo NEO), neologdn_result. split; [cbn [is_null]; rewrite neologdn_new_eq; reflexivity|].
      split; [apply ee_neologdn|apply realises_neo].
    + rewrite E. right; left. eexists. split; [reflexivity|]. split; [apply er_value; [cbn; auto|exact Hn]|].
      intros e H. inversion H; subst. contradiction.
Qed.
Lemma entry_error_det kv e e' : entry_error kv e -> entry_error kv e' -> e = e'.
Proof.
  intros H H'. inversion H as [n v Hn|n v Hn Hv]; subst; inversion H' as [n' v' Hn'|n' v' Hn' Hv']; subst; try reflexivity.
  - exfalso. apply Hn. cbn in Hn'. cbn. intuition.
  - exfalso. apply Hn'. cbn in Hn. cbn. intuition.
Qed.

(** ** All entries *)
Lemma entries_ok l effs : Forall2 entry_effect l effs -> forall o i, exists ms, yaml_modifiers o i l = Ok ms.
Proof.
  induction 1 as [|[k v] e l effs H _ IH]; intros o i; cbn [yaml_modifiers]; [eauto|].
  destruct (entry_outcome (sub o i) k v) as [(m & e' & E & _)|[(er & _ & _ & N)|(_ & _ & N)]]; [|destruct (N e H)..].
  rewrite E. cbn [bind]. destruct (IH o (S i)) as (ms & ->). cbn. eauto.
Qed.
Lemma entries_described l : forall o i ms, yaml_modifiers o i l = Ok ms ->
  exists effs, Forall2 entry_effect l effs /\ Forall2 realises ms effs.
Proof.
  induction l as [|[k v] l IH]; intros o i ms; cbn [yaml_modifiers].
  - intros E. injection E as <-. exists []. split; constructor.
  - intros H. apply bind_ok in H as (m & H1 & H). apply bind_ok in H as (r & H2 & H). injection H as <-.
    destruct (entry_outcome (sub o i) k v) as [(m' & e & E & He & Hr)|[(er & E & _)|(E & _)]]; [|congruence..].
    assert (m' = m) by (apply Ok_inj; rewrite <- E; exact H1). subst m'.
    destruct (IH o (S i) r H2) as (effs & F1 & F2). exists (e :: effs). split; constructor; assumption.
Qed.
Lemma entries_fail l1 kv l2 : Forall (fun x => exists e, entry_effect x e) l1 -> (forall e, ~ entry_effect kv e) ->
  forall o i, (forall er, entry_error kv er -> yaml_modifiers o i (l1 ++ kv :: l2) = Err er) /\
    ((forall er, ~ entry_error kv er) -> yaml_modifiers o i (l1 ++ kv :: l2) = Panic).
Proof.
  intros F N. induction F as [|[k v] l1 (e & He) _ IH]; intros o i; cbn [app yaml_modifiers].
  - destruct kv as [k v]. destruct (entry_outcome (sub o i) k v) as [(m & e & _ & He & _)|[(er & E & Her & _)|(E & Ner & _)]].
    + destruct (N e He).
    + rewrite E. split; [|intros H; destruct (H er Her)]. intros er' H. rewrite (entry_error_det _ _ _ H Her). reflexivity.
    + rewrite E. split; [intros er H; destruct (Ner er H)|reflexivity].
  - destruct (entry_outcome (sub o i) k v) as [(m & e' & E & _)|[(er & _ & _ & N')|(_ & _ & N')]]; [|destruct (N' e He)..].
    rewrite E. cbn [bind]. destruct (IH o (S i)) as [H1 H2]. split.
    + intros er H. rewrite (H1 er H). reflexivity.
    + intros H. rewrite (H2 H). reflexivity.
Qed.
(** Either all entries are described, or there is a first one that is not. *)
Lemma entries_split l : (exists effs, Forall2 entry_effect l effs) \/
  exists l1 kv l2, l = l1 ++ kv :: l2 /\ Forall (fun x => exists e, entry_effect x e) l1 /\ forall e, ~ entry_effect kv e.
Proof.
  induction l as [|[k v] l IH].
  - left. exists []. constructor.
  - destruct (entry_outcome no_order k v) as [(m & e & _ & He & _)|[(er & _ & _ & N)|(_ & _ & N)]].
    + destruct IH as [(effs & F)|(l1 & kv & l2 & -> & F & N)].
      * left. exists (e :: effs). constructor; assumption.
      * right. exists ((k, v) :: l1), kv, l2. split; [reflexivity|]. split; [|exact N]. constructor; [exists e; exact He|exact F].
    + right. exists [], (k, v), l. split; [reflexivity|]. split; [constructor|exact N].
    + right. exists [], (k, v), l. split; [reflexivity|]. split; [constructor|exact N].
Qed.
Lemma key_value_det data k v v' : key_value data k v -> key_value data k v' -> v = v'.
Proof. rewrite <- !yget_iff. congruence. Qed.
Lemma modifiers_ok_inv o data ms : modifiers_of_yaml o data = Ok ms ->
  exists effs, modifiers_described data effs /\ Forall2 realises ms effs.
Proof.
  unfold modifiers_of_yaml. destruct (yget (lit "modifiers") data) as [v|] eqn:E.
  - apply yget_iff in E. intros H. apply bind_ok in H as (l & H1 & H2). destruct v; try discriminate.
    injection H1 as ->. apply entries_described in H2 as (effs & F1 & F2). exists effs. split; [|exact F2].
    right. exists l. auto.
  - rewrite yget_None in E. intros H. injection H as <-. exists []. split; [left; auto|constructor].
Qed.
Lemma modifiers_ok o data effs : modifiers_described data effs -> exists ms, modifiers_of_yaml o data = Ok ms.
Proof.
  unfold modifiers_of_yaml. intros [[N _]|(l & K & F)].
  - apply yget_None in N. rewrite N. eauto.
  - apply yget_iff in K. rewrite K. cbn [as_mapping unwrap bind]. eapply entries_ok, F.
Qed.
Lemma C43_ok o w p ms : modifiers_from_yaml_path o w p = Ok ms ->
  exists data effs, w_yaml w p = Some (Some data) /\ modifiers_described data effs /\ Forall2 realises ms effs.
Proof.
  unfold modifiers_from_yaml_path, read_yaml. destruct (w_yaml w p) as [[data|]|]; cbn [bind]; try discriminate.
  intros H. apply modifiers_ok_inv in H as (effs & H1 & H2). exists data, effs. auto.
Qed.

(** ** Loading does not depend on hash orders *)
Lemma modifier_yaml_order o o' k v : modifier_from_yaml o k v = modifier_from_yaml o' k v.
Proof. unfold modifier_from_yaml. rewrite !neologdn_new_eq. reflexivity. Qed.
Lemma yaml_modifiers_order l : forall o o' i i', yaml_modifiers o i l = yaml_modifiers o' i' l.
Proof.
  induction l as [|[k v] l IH]; intros o o' i i'; cbn [yaml_modifiers]; [reflexivity|].
  rewrite (modifier_yaml_order (sub o i) (sub o' i')), (IH o o' (S i) (S i')). reflexivity.
Qed.
Lemma modifiers_path_order o o' w p : modifiers_from_yaml_path o w p = modifiers_from_yaml_path o' w p.
Proof.
  unfold modifiers_from_yaml_path, modifiers_of_yaml. destruct (read_yaml w p) as [data| |]; cbn [bind]; [|reflexivity..].
  destruct (yget (lit "modifiers") data) as [v|]; [|reflexivity]. destruct (as_mapping v) as [l|]; cbn [unwrap bind]; [|reflexivity].
  apply yaml_modifiers_order.
Qed.
