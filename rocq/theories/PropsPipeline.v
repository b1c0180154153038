(** Properties C30-C32: pipelines. *)
From Verif Require Import Base BaseFacts StrOps Corr Table Charset Position Converter Eliminator Reducer Dotted Ligature
  TrimMod Neologdn ModifierKind ChanomaModel CharSpec Spec ConverterFacts TableFacts ConverterProps SimpleFacts SimpleProps
  CharsetFacts LigFacts NeoFacts NeoProps PropsConverter PropsNeo.

(** ** Vocabulary *)
(** A neologdn modifier only comes from [Neologdn::new]. *)
Definition constructible (m : modifier) : Prop := forall n, m = MNeo n -> exists o, neologdn_new o = Ok n.
(** Some run of [c] turns [s] into [out]. *)
Definition result (c : chanoma) (s out : str) : Prop := exists o, normalize false o c s = Ok out.
(** Calls on a [Chanoma] and the documented effect of each. *)
Inductive call := UsePreset | UseNeologdn | AddTable (t : table).
Definition run_call (o : sched) (k : call) (c : chanoma) : outcome chanoma :=
  match k with UsePreset => use_preset o c | UseNeologdn => use_neologdn o c | AddTable t => add_table t c end.
Fixpoint run_calls (o : sched) (ks : list call) (c : chanoma) : outcome chanoma :=
  match ks with
  | [] => Ok c
  | k :: r => c' <- run_call (sub o 0) k c ;; run_calls (sub o 1) r c'
  end.
Definition call_effect (k : call) (s out : str) : Prop :=
  match k with
  | UsePreset => pointwise preset_rel s out
  | UseNeologdn => neologdn_result s out
  | AddTable t => pointwise (last_match (table_items t)) s out
  end.
Fixpoint effects (ks : list call) (s out : str) : Prop :=
  match ks with
  | [] => out = s
  | k :: r => exists mid, call_effect k s mid /\ effects r mid out
  end.
(** The stages of a run: one record per modifier, each text produced from the previous one, each record as the
    modifier alone reports it. *)
Fixpoint stages (c : list modifier) (s : str) (rs : list record) : Prop :=
  match c, rs with
  | [], [] => True
  | m :: c', r :: rs' => r_kind r = m /\ result [m] s (r_text r) /\ (exists o, normalize_with_positions o [m] s = Ok [r]) /\ stages c' (r_text r) rs'
  | _, _ => False
  end.

(** ** Lemmas *)
Lemma neo_new_inv o n : neologdn_new o = Ok n -> n = NEO.
Proof. rewrite neologdn_new_eq. congruence. Qed.
Lemma modify_total o m s : constructible m ->
  exists out ps, modify o m s = Ok out /\ modify_with_positions o m s = Ok (Record m out ps).
Proof.
  intros Hm. destruct m as [cc|el|c| |l| |n]; cbn [modify modify_with_positions].
  - destruct (conv_positions_eq o cc s) as (ps & E & _). rewrite conv_modify_eq, E. eexists. exists ps. split; reflexivity.
  - eexists. eexists. split; reflexivity.
  - rewrite red_positions_eq. eexists. eexists. split; reflexivity.
  - eexists. eexists. split; reflexivity.
  - eexists. eexists. split; reflexivity.
  - destruct (trim_parts_exists s) as (a & out & b & Hp). destruct (trim_parts_eq _ _ _ _ Hp) as [E1 E2].
    rewrite E1, E2. eexists. eexists. split; reflexivity.
  - destruct (Hm n eq_refl) as (o' & Hn). apply neo_new_inv in Hn. subst n.
    rewrite neo_modify_eq, neo_positions_eq. eexists. eexists. split; reflexivity.
Qed.
Lemma normalize_one o i m s : normalize_fold o i [m] s = modify (sub o i) m s.
Proof. cbn [normalize_fold]. destruct (modify (sub o i) m s); reflexivity. Qed.

(** Reindexing schedules. *)
Definition from_index (n : nat) (o : sched) : sched :=
  fun p => match p with k :: r => o (n + k :: r) | [] => [] end.
Definition glue (n : nat) (o1 o2 : sched) : sched :=
  fun p => match p with k :: r => if Nat.ltb k n then o1 (k :: r) else o2 (k - n :: r) | [] => [] end.
Lemma fold_ext ms : forall o o' i i' s, (forall k, k < length ms -> forall p, o (i + k :: p) = o' (i' + k :: p)) ->
  normalize_fold o i ms s = normalize_fold o' i' ms s.
Proof.
  assert (Hm : forall m o o' s, (forall p, o p = o' p) -> modify o m s = modify o' m s).
  { intros m o o' s H.
    assert (Hi : forall A (l : list A) (a b : sched), (forall p, a p = b p) -> hash_iter a l = hash_iter b l).
    { intros A l a b Hab. unfold hash_iter. rewrite Hab. reflexivity. }
    destruct m as [cc|el|c| |l| |n]; cbn [modify]; try reflexivity.
    - rewrite !conv_modify_eq. reflexivity.
    - unfold lig_modify. rewrite (Hi _ _ o o' H). reflexivity.
    - unfold neo_modify. rewrite !conv_modify_eq. cbn [bind]. unfold lig_modify.
      rewrite (Hi _ _ (sub o 1) (sub o' 1)); [reflexivity|]. intros p. apply H. }
  induction ms as [|m ms IH]; intros o o' i i' s H; cbn [normalize_fold]; [reflexivity|].
  rewrite (Hm m (sub o i) (sub o' i') s).
  - destruct (modify (sub o' i') m s) as [a| |]; cbn [bind]; [|reflexivity..].
    apply IH. intros k Hk p. specialize (H (S k)). rewrite <- !Nat.add_succ_comm in H. apply H. simpl; lia.
  - intros p. unfold sub. specialize (H 0 ltac:(simpl; lia) p). rewrite !Nat.add_0_r in H. exact H.
Qed.
Lemma fold_app c1 c2 o i s : normalize_fold o i (c1 ++ c2) s =
  (mid <- normalize_fold o i c1 s ;; normalize_fold o (i + length c1) c2 mid).
Proof.
  revert i s; induction c1 as [|m c1 IH]; intros i s; cbn [app normalize_fold].
  - cbn [bind length]. rewrite Nat.add_0_r. reflexivity.
  - destruct (modify (sub o i) m s) as [a| |]; cbn [bind]; [|reflexivity..].
    rewrite IH. cbn [length]. rewrite Nat.add_succ_comm. reflexivity.
Qed.
Lemma result_app c1 c2 s out : result (c1 ++ c2) s out <-> exists mid, result c1 s mid /\ result c2 mid out.
Proof.
  unfold result, normalize. cbn [negb]. split.
  - intros (o & H). rewrite fold_app in H. apply bind_ok in H as (mid & H1 & H2).
    exists mid. split; [exists o; exact H1|]. exists (from_index (length c1) o). rewrite <- H2.
    apply fold_ext. intros k _ p. reflexivity.
  - intros (mid & (o1 & H1) & (o2 & H2)). exists (glue (length c1) o1 o2).
    rewrite fold_app. apply bind_ok. exists mid. split.
    + rewrite <- H1. apply fold_ext. intros k Hk p. unfold glue. cbn [Nat.add].
      destruct (Nat.ltb_spec k (length c1)); [reflexivity|lia].
    + rewrite <- H2. apply fold_ext. intros k Hk p. unfold glue. cbn [Nat.add].
      destruct (Nat.ltb_spec (length c1 + k) (length c1)); [lia|].
      replace (length c1 + k - length c1) with k by lia. reflexivity.
Qed.
Lemma result_nil s out : result [] s out <-> out = s.
Proof.
  unfold result, normalize. cbn. split; [intros (o & H); congruence|intros ->; exists no_order; reflexivity].
Qed.

Lemma call_ok o k c c' : run_call o k c = Ok c' -> exists m, c' = c ++ [m] /\ constructible m /\
  forall s out, result [m] s out <-> call_effect k s out.
Proof.
  destruct k as [| |t]; cbn [run_call call_effect].
  - unfold use_preset. rewrite all_characters_set_eq. cbn [bind]. intros E. injection E as <-.
    exists (MConv PRESET). split; [reflexivity|]. split; [discriminate|]. intros s out. unfold result. split.
    + intros (o' & H). rewrite normalize_conv in H. injection H as <-. apply conv1_rel, PRESET_get.
    + intros H. exists no_order. rewrite normalize_conv. f_equal. symmetry. apply (conv1_rel_unique _ _ PRESET_get), H.
  - unfold use_neologdn. rewrite neologdn_new_eq. cbn [bind]. intros E. apply Ok_inj in E. subst c'.
    exists (MNeo NEO). split; [reflexivity|]. split.
    { intros n E. exists no_order. rewrite neologdn_new_eq. congruence. }
    intros s out. unfold result. rewrite <- neo_text_result. split.
    + intros (o' & H). rewrite normalize_neo in H. apply Ok_inj in H. exact H.
    + intros H. exists no_order. rewrite normalize_neo. f_equal. exact H.
  - unfold add_table. destruct (from_tables [t]) as [cc| |] eqn:E; cbn [bind]; try discriminate.
    intros H. injection H as <-. exists (MConv cc). split; [reflexivity|]. split; [discriminate|].
    assert (Hr : forall c t0, conv_get cc c = Some t0 <-> last_match (table_items t) c t0).
    { intros c0 t0. rewrite <- (table_rel [t] cc c0 t0 E), tables_items_one. reflexivity. }
    intros s out. unfold result. split.
    + intros (o' & H). rewrite normalize_conv in H. injection H as <-. apply conv1_rel, Hr.
    + intros H. exists no_order. rewrite normalize_conv. f_equal. symmetry. apply (conv1_rel_unique _ _ Hr), H.
Qed.
Lemma C30_lemma o ks c c' : run_calls o ks c = Ok c' -> forall s out,
  result c' s out <-> exists mid, result c s mid /\ effects ks mid out.
Proof.
  revert o c; induction ks as [|k ks IH]; intros o c; cbn [run_calls effects].
  - intros E. injection E as <-. intros s out. split; [intros H; exists out; auto|intros (mid & H & ->); exact H].
  - intros E. apply bind_ok in E as (c1 & E1 & E2). destruct (call_ok _ _ _ _ E1) as (m & -> & _ & Hm).
    intros s out. rewrite (IH _ _ E2). split.
    + intros (mid & H & He). apply result_app in H as (m0 & H0 & H1). apply Hm in H1. exists m0. split; [exact H0|].
      exists mid. auto.
    + intros (m0 & H0 & mid & H1 & He). exists mid. split; [|exact He]. apply result_app. exists m0.
      split; [exact H0|]. apply Hm, H1.
Qed.
Lemma C30_constructible o ks c c' : run_calls o ks c = Ok c' -> Forall constructible c -> Forall constructible c'.
Proof.
  revert o c; induction ks as [|k ks IH]; intros o c; cbn [run_calls].
  - intros E. injection E as <-. trivial.
  - intros E Hc. apply bind_ok in E as (c1 & E1 & E2). destruct (call_ok _ _ _ _ E1) as (m & -> & Hm & _).
    apply (IH _ _ E2). apply Forall_app. split; [exact Hc|constructor; [exact Hm|constructor]].
Qed.

Lemma records_lemma c : Forall constructible c -> forall o i s, exists rs out,
  normalize_records o i c s = Ok rs /\ normalize_fold o i c s = Ok out /\ stages c s rs /\
  (c <> [] -> records_text rs = Ok out).
Proof.
  induction 1 as [|m c Hm Hc IH]; intros o i s; cbn [normalize_records normalize_fold].
  - exists [], s. repeat split. intros H; contradiction.
  - destruct (modify_total (sub o i) m s Hm) as (t & ps & E1 & E2). rewrite E1, E2. cbn [bind r_text].
    destruct (IH o (S i) t) as (rs & out & R1 & R2 & R3 & R4). rewrite R1, R2. cbn [bind].
    exists (Record m t ps :: rs), out. split; [reflexivity|]. split; [reflexivity|]. split.
    + cbn [stages r_kind r_text]. split; [reflexivity|]. split; [|split; [|exact R3]].
      2: { exists (fun p => match p with _ :: r => o (i :: r) | [] => [] end). unfold normalize_with_positions.
           cbn [normalize_records]. refine (eq_trans (f_equal (fun x => bind x _) E2) _). reflexivity. }
      exists (fun p => match p with k :: r => o (i + k :: r) | [] => [] end).
      unfold normalize. cbn [negb]. rewrite <- E1.
      rewrite <- (normalize_one o i m s). apply fold_ext. intros k Hk p. reflexivity.
    + intros _. destruct c as [|m' c].
      * cbn in R1, R2. injection R1 as <-. injection R2 as <-. reflexivity.
      * specialize (R4 ltac:(discriminate)). unfold records_text in *. cbn [rev].
        destruct (rev rs) as [|x q]; [discriminate|]. exact R4.
Qed.
Lemma C31_lemma o c s : Forall constructible c -> exists rs,
  normalize_with_positions o c s = Ok rs /\ stages c s rs /\ (c <> [] -> records_text rs = normalize false o c s).
Proof.
  intros Hc. destruct (records_lemma c Hc o 0 s) as (rs & out & R1 & R2 & R3 & R4).
  exists rs. split; [exact R1|]. split; [exact R3|]. intros H. rewrite (R4 H). symmetry. exact R2.
Qed.
Lemma C32_lemma o c s : Forall constructible c -> exists out,
  normalize false o c s = Ok out /\ normalize true o c s = if c then Panic else Ok out.
Proof.
  intros Hc. destruct (records_lemma c Hc o 0 s) as (rs & out & R1 & R2 & R3 & R4).
  exists out. split; [exact R2|]. unfold normalize. cbn [negb]. unfold normalize_with_positions. rewrite R1. cbn [bind].
  destruct c as [|m c].
  - cbn in R1. injection R1 as <-. reflexivity.
  - apply R4. discriminate.
Qed.

(** ** C30 *)
Theorem C30_calls_in_order : forall o ks c c', run_calls o ks c = Ok c' ->
  forall s out, result c' s out <-> exists mid, result c s mid /\ effects ks mid out.
Proof. exact C30_lemma. Qed.
Print Assumptions C30_calls_in_order.
Theorem C30_concatenation_composes : forall c1 c2 s out,
  result (c1 ++ c2) s out <-> exists mid, result c1 s mid /\ result c2 mid out.
Proof. exact result_app. Qed.
Print Assumptions C30_concatenation_composes.
Theorem C30_empty_identity : forall s out, result chanoma_new s out <-> out = s.
Proof. exact result_nil. Qed.
Print Assumptions C30_empty_identity.
Theorem C30_constructors : forall o c,
  (chanoma_preset o = Ok c -> forall s out, result c s out <-> pointwise preset_rel s out) /\
  (chanoma_neologdn o = Ok c -> forall s out, result c s out <-> neologdn_result s out) /\
  (forall t, chanoma_from_table t = Ok c -> forall s out, result c s out <-> pointwise (last_match (table_items t)) s out).
Proof.
  intros o c. split; [|split].
  - intros H. destruct (call_ok o UsePreset chanoma_new c) as (m & -> & _ & G); [|exact G].
    rewrite <- H. cbn [run_call]. unfold use_preset, chanoma_preset. rewrite all_characters_set_eq. reflexivity.
  - intros H. destruct (call_ok o UseNeologdn chanoma_new c) as (m & -> & _ & G); [|exact G].
    rewrite <- H. cbn [run_call]. unfold use_neologdn, chanoma_neologdn. rewrite neologdn_new_eq. reflexivity.
  - intros t H. destruct (call_ok o (AddTable t) chanoma_new c) as (m & -> & _ & G); [|exact G].
    rewrite <- H. cbn [run_call]. unfold add_table, chanoma_from_table. destruct (from_tables [t]); reflexivity.
Qed.
Print Assumptions C30_constructors.
(** Calls panic exactly when a table has an empty string. *)
Lemma run_call_cases o k c : (exists c', run_call o k c = Ok c' /\
    ~ exists t it, k = AddTable t /\ In it (table_items t) /\ (from it = [] \/ to it = [])) \/
  (run_call o k c = Panic /\ exists t it, k = AddTable t /\ In it (table_items t) /\ (from it = [] \/ to it = [])).
Proof.
  destruct k as [| |t]; cbn [run_call].
  - left. unfold use_preset. rewrite all_characters_set_eq. eexists. split; [reflexivity|].
    intros (t & it & E & _); discriminate.
  - left. unfold use_neologdn. rewrite neologdn_new_eq. eexists. split; [reflexivity|].
    intros (t & it & E & _); discriminate.
  - unfold add_table. pose proof (C05_iff [t]) as [[H1 H2] H3]. destruct (from_tables [t]) as [cc|e|] eqn:E; cbn [bind].
    + left. eexists. split; [reflexivity|]. intros (t' & it & E' & H). injection E' as <-.
      discriminate H2. exists t, it. split; [left; reflexivity|exact H].
    + exfalso. destruct (H3 ltac:(discriminate)) as (cc & H). discriminate.
    + right. split; [reflexivity|]. destruct (H1 eq_refl) as (t' & it & [<-|[]] & H).
      exists t, it. auto.
Qed.
Theorem C30_calls_panic_iff : forall o ks c,
  (run_calls o ks c = Panic <->
   exists t it, In (AddTable t) ks /\ In it (table_items t) /\ (from it = [] \/ to it = [])) /\
  (run_calls o ks c <> Panic -> exists c', run_calls o ks c = Ok c').
Proof.
  intros o ks; revert o; induction ks as [|k ks IH]; intros o c; cbn [run_calls].
  - split; [split; [discriminate|intros (t & it & [] & _)]|]. intros _. eexists. reflexivity.
  - destruct (run_call_cases (sub o 0) k c) as [(c' & E & N)|(E & t & it & -> & H)]; rewrite E; cbn [bind].
    + destruct (IH (sub o 1) c') as [H1 H2]. split; [|exact H2]. rewrite H1. split.
      * intros (t & it & Ht & H). exists t, it. split; [right; exact Ht|exact H].
      * intros (t & it & [Ht|Ht] & H); [|exists t, it; auto]. destruct N. exists t, it. auto.
    + split; [|congruence]. split; [|reflexivity]. intros _. exists t, it. split; [left; reflexivity|exact H].
Qed.
Print Assumptions C30_calls_panic_iff.
Definition ex_calls : list call := [UsePreset; AddTable ex_table; UseNeologdn].
Example C30_case : exists c, run_calls other_order ex_calls chanoma_new = Ok c /\
  normalize false other_order c [0xFF41; 0x30AB; 0x309B; 0x7E]%N = Ok [0x5A; 0x30AC]%N /\
  normalize_with_positions no_order c [] <> Panic.
Proof.
  exists [MConv PRESET; MConv [(97, 90); (0x3042, 98)]%N; MNeo NEO].
  split; [vm_compute; reflexivity|].
  split; [vm_compute; reflexivity|vm_compute; discriminate].
Qed.

(** ** C31 *)
Theorem C31_records_every_stage : forall o c s, Forall constructible c -> exists rs,
  normalize_with_positions o c s = Ok rs /\ stages c s rs /\ (c <> [] -> records_text rs = normalize false o c s).
Proof. exact C31_lemma. Qed.
Print Assumptions C31_records_every_stage.
Theorem C31_calls_constructible : forall o ks c c',
  run_calls o ks c = Ok c' -> Forall constructible c -> Forall constructible c'.
Proof. exact C30_constructible. Qed.
Print Assumptions C31_calls_constructible.
Example C31_case : Forall constructible [MTrim; MElim [97%N]; MLig [(lit "ab", lit "c")]] /\
  normalize_with_positions no_order [MTrim; MElim [97%N]; MLig [(lit "bc", lit "d")]] (lit " abc ") =
  Ok [Record MTrim (lit "abc") [Pos (lit " ") [] 0 1 0 1; Pos (lit " ") [] 4 1 4 1];
      Record (MElim [97%N]) (lit "bc") []; Record (MLig [(lit "bc", lit "d")]) (lit "d") []].
Proof. split; [repeat constructor; intros n E; discriminate|vm_compute; reflexivity]. Qed.

(** ** C32 *)
Theorem C32_log_level : forall o c s, Forall constructible c -> exists out,
  normalize false o c s = Ok out /\ normalize true o c s = if c then Panic else Ok out.
Proof. exact C32_lemma. Qed.
Print Assumptions C32_log_level.
Theorem C32_text_panics_iff : forall o c s rs, normalize_with_positions o c s = Ok rs ->
  (records_text rs = Panic <-> c = []).
Proof.
  intros o c s rs H. unfold normalize_with_positions in H. destruct c as [|m c].
  - cbn in H. injection H as <-. split; reflexivity.
  - split; [|discriminate]. cbn [normalize_records] in H. apply bind_ok in H as (r & _ & H).
    apply bind_ok in H as (rest & _ & H). injection H as <-. unfold records_text. cbn [rev].
    destruct (rev rest); discriminate.
Qed.
Print Assumptions C32_text_panics_iff.
Theorem C32_log_level_irrelevant_refuted : exists o c s, normalize false o c s <> normalize true o c s.
Proof. exists no_order, chanoma_new, (lit "a"). discriminate. Qed.
Print Assumptions C32_log_level_irrelevant_refuted.
Example C32_case : Forall constructible [MTrim; MRed 97%N] /\
  normalize false no_order [MTrim; MRed 97%N] (lit " baa ") = Ok (lit "ba") /\
  normalize true no_order [MTrim; MRed 97%N] (lit " baa ") = Ok (lit "ba") /\
  normalize true no_order chanoma_new (lit " baa ") = Panic.
Proof. split; [repeat constructor; intros n E; discriminate|vm_compute; auto]. Qed.
