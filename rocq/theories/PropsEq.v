(** Property C77: equality of modifiers. *)
From Coq Require Import String Permutation.
From Verif Require Import Base BaseFacts Utf8 StrOps Corr Table Charset Position Converter Eliminator Reducer Dotted Ligature TrimMod Neologdn
  ModifierKind KindEq PathModel Yaml File Configuration ChanomaModel CharSpec Spec ConverterFacts ConverterProps SimpleFacts SimpleProps LigFacts PropsConverter
  PropsSimple PropsLig NeoFacts CharsetFacts NeoProps PropsNeo PropsPipeline CommProps.
Local Open Scope string_scope.
Local Open Scope list_scope.

(** ** Vocabulary *)
(** The keys of a map and the elements of a set are distinct; a neologdn modifier comes from [Neologdn::new]. *)
Definition proper (m : modifier) : Prop :=
  match m with
  | MConv cc => NoDup (map fst cc)
  | MElim el => NoDup el
  | MLig l => NoDup (map fst l)
  | MNeo n => exists o, neologdn_new o = Ok n
  | MRed _ | MDot | MTrim => True
  end.
(** The same kind of modifier with the same contents. *)
Definition same_contents (m m' : modifier) : Prop :=
  match m, m' with
  | MConv a, MConv b => forall c t, In (c, t) a <-> In (c, t) b
  | MElim a, MElim b => forall c, In c a <-> In c b
  | MRed k, MRed j => k = j
  | MLig a, MLig b => forall k v, In (k, v) a <-> In (k, v) b
  | MDot, MDot | MTrim, MTrim | MNeo _, MNeo _ => True
  | _, _ => False
  end.
(** The two modifiers can give the same results for every text. *)
Definition alike (m m' : modifier) : Prop := forall s out, result [m] s out <-> result [m'] s out.

(** ** Lemmas *)
Section Hashes.
  Context {K V : Type} (keq : K -> K -> bool) (veq : V -> V -> bool).
  Hypothesis keq_iff : forall a b, keq a b = true <-> a = b.
  Hypothesis veq_iff : forall a b, veq a b = true <-> a = b.
  Lemma hm_eqb_iff (a b : list (K * V)) : NoDup (map fst a) -> NoDup (map fst b) ->
    (hm_eqb keq veq a b = true <-> forall k v, In (k, v) a <-> In (k, v) b).
  Proof.
    intros Na Nb. unfold hm_eqb. rewrite andb_true_iff, Nat.eqb_eq, forallb_forall. split.
    - intros (L & F).
      assert (I : forall kv, In kv a -> In kv b).
      { intros [k v] J. specialize (F _ J). cbn [fst snd] in F. destruct (hm_get keq k b) as [v'|] eqn:E; [|discriminate].
        apply veq_iff in F. subst v'. apply (hm_get_In keq keq_iff), E. }
      assert (N1 : NoDup a) by (apply (NoDup_map_inv fst), Na).
      assert (I' : incl b a) by (apply NoDup_length_incl; [exact N1|lia|exact I]).
      intros k v. split; [apply I|apply I'].
    - intros H. split.
      + apply Permutation_length. apply NoDup_Permutation; [apply (NoDup_map_inv fst), Na|apply (NoDup_map_inv fst), Nb|]. intros [k v]. apply H.
      + intros [k v] J. cbn [fst snd]. apply H in J. rewrite (hm_In_get keq keq_iff k v b Nb J). apply veq_iff. reflexivity.
  Qed.
  Lemma mem_iff (x : K) l : mem keq x l = true <-> In x l.
  Proof.
    unfold mem. rewrite existsb_exists. split.
    - intros (y & I & E). apply keq_iff in E. subst. exact I.
    - intros I. exists x. split; [exact I|apply keq_iff; reflexivity].
  Qed.
  Lemma hs_eqb_iff (a b : list K) : NoDup a -> NoDup b -> (hs_eqb keq a b = true <-> forall x, In x a <-> In x b).
  Proof.
    intros Na Nb. unfold hs_eqb. rewrite andb_true_iff, Nat.eqb_eq, forallb_forall. split.
    - intros (L & F). assert (I : incl a b) by (intros x J; apply mem_iff, F, J).
      assert (I' : incl b a) by (apply NoDup_length_incl; [exact Na|lia|exact I]). intros x. split; [apply I|apply I'].
    - intros H. split; [apply Permutation_length, NoDup_Permutation; assumption|]. intros x J. apply mem_iff, H, J.
  Qed.
End Hashes.
Lemma insert_items_nodup items : forall m m', NoDup (map fst m) -> insert_items m items = Ok m' -> NoDup (map fst m').
Proof.
  induction items as [|it items IH]; intros m m' N; cbn [insert_items]; [intros E; apply Ok_inj in E; subst; exact N|].
  destruct (unwrap (first_char (from it))); cbn [bind]; try discriminate. destruct (unwrap (first_char (to it))); cbn [bind]; try discriminate.
  apply IH. apply (hm_insert_nodup N.eqb N.eqb_eq), N.
Qed.
Lemma insert_tables_nodup ts : forall m m', NoDup (map fst m) -> insert_tables m ts = Ok m' -> NoDup (map fst m').
Proof.
  induction ts as [|t ts IH]; intros m m' N; cbn [insert_tables]; [intros E; apply Ok_inj in E; subst; exact N|].
  destruct (insert_items m (table_items t)) as [m0| |] eqn:E; cbn [bind]; try discriminate. apply IH. apply (insert_items_nodup _ _ _ N E).
Qed.
Lemma from_tables_nodup ts cc : from_tables ts = Ok cc -> NoDup (map fst cc).
Proof. apply insert_tables_nodup. constructor. Qed.
Lemma elim_nodup cs : NoDup (elim_from_chars cs).
Proof. apply (hs_insert_all_nodup N.eqb N.eqb_eq). constructor. Qed.
Lemma neo_parts o n : neologdn_new o = Ok n -> NoDup (map fst (neo_conv n)) /\ NoDup (neo_elim n) /\ NoDup (map fst (neo_lig n)).
Proof.
  unfold neologdn_new. destruct (from_tables _) as [cc| |] eqn:E; cbn [bind]; try discriminate. intros H. apply Ok_inj in H. subst n.
  cbn [neo_conv neo_elim neo_lig]. split; [apply (from_tables_nodup _ _ E)|]. split; [apply elim_nodup|].
  unfold neologdn_lig. apply (hm_collect_from_nodup str_eqb str_eqb_eq), (hm_collect_from_nodup str_eqb str_eqb_eq). constructor.
Qed.
Lemma neo_eq_refl o n : neologdn_new o = Ok n -> neologdn_eqb n n = true.
Proof.
  intros H. destruct (neo_parts o n H) as (N1 & N2 & N3). unfold neologdn_eqb, converter_eqb, eliminator_eqb, ligature_eqb.
  rewrite (proj2 (hm_eqb_iff N.eqb N.eqb N.eqb_eq N.eqb_eq _ _ N1 N1)) by tauto. rewrite N.eqb_refl.
  rewrite (proj2 (hs_eqb_iff N.eqb N.eqb_eq _ _ N2 N2)) by tauto.
  rewrite (proj2 (hm_eqb_iff str_eqb str_eqb str_eqb_eq str_eqb_eq _ _ N3 N3)) by tauto. reflexivity.
Qed.
Lemma eqb_contents m m' : proper m -> proper m' -> (modifier_eqb m m' = true <-> same_contents m m').
Proof.
  intros P P'. destruct m, m'; cbn [proper modifier_eqb same_contents] in *; try (split; [discriminate|contradiction]); try tauto.
  - apply (hm_eqb_iff N.eqb N.eqb N.eqb_eq N.eqb_eq _ _ P P').
  - apply (hs_eqb_iff N.eqb N.eqb_eq _ _ P P').
  - apply N.eqb_eq.
  - apply (hm_eqb_iff str_eqb str_eqb str_eqb_eq str_eqb_eq _ _ P P').
  - split; [trivial|]. intros _. destruct P as (o & H), P' as (o' & H').
    assert (E : x0 = x) by (apply neo_new_inv in H, H'; congruence). subst x0. exact (neo_eq_refl o x H).
Qed.
Lemma conv_get_iff cc c t : NoDup (map fst cc) -> (conv_get cc c = Some t <-> In (c, t) cc).
Proof. intros N. unfold conv_get. split; [apply (hm_get_In N.eqb N.eqb_eq)|apply (hm_In_get N.eqb N.eqb_eq _ _ _ N)]. Qed.
Lemma conv_get_same a b : NoDup (map fst a) -> NoDup (map fst b) -> (forall c t, In (c, t) a <-> In (c, t) b) -> forall c, conv_get a c = conv_get b c.
Proof.
  intros Na Nb H c. destruct (conv_get a c) as [t|] eqn:E.
  - symmetry. apply (conv_get_iff b c t Nb), H, (conv_get_iff a c t Na), E.
  - destruct (conv_get b c) as [t|] eqn:E'; [|reflexivity]. apply (conv_get_iff b c t Nb), H, (conv_get_iff a c t Na) in E'. congruence.
Qed.
Lemma conv_loop_same a b : (forall c, conv_get a c = conv_get b c) -> forall es st, convert_pos_loop a es st = convert_pos_loop b es st.
Proof.
  intros H es. induction es as [|[c cp] es IH]; intros st; cbn [convert_pos_loop]; [reflexivity|]. rewrite H.
  destruct (match conv_get b c with Some t => _ | None => _ end); cbn [bind]; [apply IH|reflexivity..].
Qed.
Lemma same_runs m m' o s : proper m -> proper m' -> same_contents m m' ->
  exists o', modify o' m' s = modify o m s /\
    modify_with_positions o' m' s = (r <- modify_with_positions o m s ;; Ok (Record m' (r_text r) (r_positions r))).
Proof.
  intros P P' H. destruct m, m'; cbn [same_contents proper] in *; try contradiction.
  - pose proof (conv_get_same _ _ P P' H) as G. exists o. cbn [modify modify_with_positions]. split.
    + rewrite !conv_modify_eq. f_equal. apply map_ext. intros c. unfold conv1. rewrite G. reflexivity.
    + unfold conv_modify_with_positions. rewrite <- (conv_loop_same _ _ G). destruct (convert_pos_loop _ _ _); reflexivity.
  - exists o. cbn [modify modify_with_positions]. assert (E : elim_modify x0 s = elim_modify x s).
    { induction s as [|c s IH]; [reflexivity|]. cbn [elim_modify]. rewrite IH.
      assert (M : mem N.eqb c x0 = mem N.eqb c x) by (apply eq_true_iff_eq; rewrite !(mem_iff N.eqb N.eqb_eq); symmetry; apply H). rewrite M. reflexivity. }
    rewrite E. split; reflexivity.
  - subst. exists o. cbn [modify modify_with_positions]. split; [reflexivity|]. destruct (red_modify_with_positions x0 s); reflexivity.
  - exists o. split; reflexivity.
  - assert (Pm : Permutation x0 (hash_iter o x)).
    { transitivity x; [|apply hash_iter_perm]. symmetry. apply NoDup_Permutation; [apply (NoDup_map_inv fst), P|apply (NoDup_map_inv fst), P'|]. intros [k v]. apply H. }
    destruct (hash_iter_surj _ _ Pm) as (o' & E). exists o'. cbn [modify modify_with_positions]. unfold lig_modify. rewrite E. split; reflexivity.
  - exists o. cbn [modify modify_with_positions]. split; [reflexivity|]. destruct (trim_modify_with_positions s); reflexivity.
  - destruct P as (o1 & Q), P' as (o2 & Q'). assert (E : x0 = x) by (apply neo_new_inv in Q, Q'; congruence). subst x0.
    exists o. cbn [modify modify_with_positions]. split; [reflexivity|]. destruct (neo_modify_with_positions o x s); reflexivity.
Qed.
Definition at_index (o : sched) : sched := fun p => match p with _ :: r => o r | [] => [] end.
Lemma sub_at o : forall i p, sub (at_index o) i p = o p.
Proof. reflexivity. Qed.
Lemma alike_of m m' : proper m -> proper m' -> same_contents m m' -> forall s out, result [m] s out -> result [m'] s out.
Proof.
  intros P P' H s out (o & E). unfold normalize in E. cbn [negb] in E. rewrite normalize_one in E.
  destruct (same_runs m m' (sub o 0) s P P' H) as (o' & E1 & _). exists (at_index o'). unfold normalize. cbn [negb]. rewrite normalize_one.
  change (sub (at_index o') 0) with o'. rewrite E1. exact E.
Qed.
Lemma same_sym m m' : same_contents m m' -> same_contents m' m.
Proof. destruct m, m'; cbn [same_contents]; try tauto; intros H; try (intros; symmetry; apply H); symmetry; exact H. Qed.

(** ** C77 *)
(** Two modifiers are equal exactly if they are of one kind and have the same contents. *)
Theorem C77_equal_iff : forall m m', proper m -> proper m' -> (modifier_eqb m m' = true <-> same_contents m m').
Proof. exact eqb_contents. Qed.
Print Assumptions C77_equal_iff.
(** So it is an equivalence, as [Eq] promises. *)
Theorem C77_equivalence : forall a b c, proper a -> proper b -> proper c ->
  modifier_eqb a a = true /\ modifier_eqb a b = modifier_eqb b a /\ (modifier_eqb a b = true -> modifier_eqb b c = true -> modifier_eqb a c = true).
Proof.
  intros a b c Pa Pb Pc. split; [|split].
  - apply (eqb_contents a a Pa Pa). destruct a; cbn [same_contents]; tauto.
  - apply eq_true_iff_eq. rewrite (eqb_contents a b Pa Pb), (eqb_contents b a Pb Pa). split; apply same_sym.
  - rewrite (eqb_contents a b Pa Pb), (eqb_contents b c Pb Pc), (eqb_contents a c Pa Pc).
    destruct a, b, c; cbn [same_contents]; try tauto; intros H1 H2; try congruence; intros; rewrite H1; apply H2.
Qed.
Print Assumptions C77_equivalence.
(** Equal modifiers give the same results and positions. *)
Theorem C77_equal_alike : forall m m', proper m -> proper m' -> modifier_eqb m m' = true ->
  alike m m' /\ forall o s r, normalize_with_positions o [m] s = Ok [r] ->
    exists o' r', normalize_with_positions o' [m'] s = Ok [r'] /\ r_text r' = r_text r /\ r_positions r' = r_positions r.
Proof.
  intros m m' P P' E. apply (eqb_contents m m' P P') in E. split.
  - intros s out. split; apply alike_of; try assumption. apply same_sym, E.
  - intros o s r H. unfold normalize_with_positions in H. cbn [normalize_records] in H. destruct (same_runs m m' (sub o 0) s P P' E) as (o' & _ & E2).
    destruct (modify_with_positions (sub o 0) m s) as [x| |] eqn:Ex; cbn [bind] in H; try discriminate. apply Ok_inj in H. injection H as <-.
    exists (at_index o'), (Record m' (r_text x) (r_positions x)). split; [|split; reflexivity].
    unfold normalize_with_positions. cbn [normalize_records]. change (sub (at_index o') 0) with o'. rewrite E2. reflexivity.
Qed.
Print Assumptions C77_equal_alike.
(** Eliminators, and reducers, with the same results are equal; converters too unless they convert a character to itself. *)
Theorem C77_alike_equal : forall m m', proper m -> proper m' ->
  match m, m' with
  | MElim _, MElim _ | MRed _, MRed _ => True
  | MConv a, MConv b => forall c, ~ In (c, c) a /\ ~ In (c, c) b
  | _, _ => False
  end -> (alike m m' <-> modifier_eqb m m' = true).
Proof.
  intros m m' P P' K. split; [|intros E; apply (C77_equal_alike m m' P P' E)]. intros A. apply (eqb_contents m m' P P').
  destruct m as [a|a|a| | | |], m' as [b|b|b| | | |]; try contradiction; cbn [proper same_contents] in *.
  - assert (G : forall c, conv1 a c = conv1 b c).
    { intros c. specialize (A [c] [conv1 a c]). apply (conv_single b c), A, (conv_single a c). reflexivity. }
    assert (X : forall x y, NoDup (map fst x) -> NoDup (map fst y) -> (forall c, conv1 x c = conv1 y c) -> (forall c, ~ In (c, c) x) ->
      forall c t, In (c, t) x -> In (c, t) y).
    { intros x y Nx Ny H I c t J. apply (conv_get_iff x c t Nx) in J as Q. apply (conv_get_iff y c t Ny). specialize (H c). unfold conv1 in H. rewrite Q in H.
      destruct (conv_get y c) as [t'|]; [congruence|]. subst t. destruct (I c J). }
    intros c t. split; apply X; try assumption; try (intros c'; apply K). intros c'. symmetry. apply G.
  - intros c. specialize (A [c] [c]). rewrite (does_elim a [c]), (does_elim b [c]) in A. cbn [filter] in A.
    rewrite <- !(mem_iff N.eqb N.eqb_eq). destruct (mem N.eqb c a), (mem N.eqb c b); cbn [negb] in A; try tauto.
    + destruct A as [_ A]. specialize (A eq_refl). discriminate A.
    + destruct A as [A _]. specialize (A eq_refl). discriminate A.
  - specialize (A [a; a] [a]). rewrite (does_red a [a; a]), (does_red b [a; a]) in A. cbn [red_rec] in A. rewrite N.eqb_refl in A.
    destruct A as [A _]. specialize (A eq_refl). destruct (N.eqb_spec b a) as [E|D]; [symmetry; exact E|discriminate A].
Qed.
Print Assumptions C77_alike_equal.
(** The expectation that modifiers with the same results are equal is false, also within one kind. *)
Theorem C77_alike_equal_refuted : exists m m', proper m /\ proper m' /\ alike m m' /\ modifier_eqb m m' = false /\ modifier_eqb m m = true.
Proof.
  exists (MConv [(0x61, 0x61)]%N), (MConv []). split; [repeat constructor; intros []|]. split; [constructor|]. split; [|split; reflexivity].
  intros s out. rewrite (does_conv [(0x61, 0x61)]%N s), (does_conv [] s).
  assert (E : map (conv1 [(0x61, 0x61)]%N) s = map (conv1 []) s); [|rewrite E; reflexivity].
  apply map_ext. intros c. unfold conv1, conv_get. cbn [hm_get]. destruct (N.eqb_spec c 0x61) as [->|D]; reflexivity.
Qed.
Print Assumptions C77_alike_equal_refuted.
Theorem C77_ligature_equal_refuted : exists m m', proper m /\ proper m' /\ alike m m' /\ modifier_eqb m m' = false.
Proof.
  exists (MLig []), (MElim []). split; [constructor|]. split; [constructor|]. split; [|reflexivity].
  intros s out. rewrite (does_elim [] s), filter_all by reflexivity. split.
  - intros H. apply C22_outcomes_exact in H as (l & P & T). apply Permutation_nil in P. subst l. inversion T. reflexivity.
  - intros ->. apply C22_outcomes_exact. exists []. split; [constructor|constructor].
Qed.
Print Assumptions C77_ligature_equal_refuted.

Lemma str_proper : forall o s m, modifier_from_str o s = Ok m -> proper m.
Proof.
  intros o s m. unfold modifier_from_str.
    destruct (str_eqb s S_neologdn); [intros H; apply bind_ok in H as (n & E & H); apply Ok_inj in H; subst m; exists o; exact E|].
    destruct (str_eqb s S_trim); [intros H; apply Ok_inj in H; subst m; exact I|].
    destruct (str_eqb s S_dotted); [intros H; apply Ok_inj in H; subst m; exact I|].
    destruct (starts_with P_reducer s); [intros H; apply bind_ok in H as (a & _ & H); apply bind_ok in H as (c & _ & H); apply Ok_inj in H; subst m; exact I|].
    destruct (starts_with P_ligature s).
    { intros H; apply bind_ok in H as (a & _ & H); apply bind_ok in H as (l & E & H); apply Ok_inj in H; subst m. unfold lig_from_str in E.
      destruct (split COMMA a) as [|x [|y [|]]]; try discriminate. apply Ok_inj in E. subst l. apply (hm_collect_nodup str_eqb str_eqb_eq). }
    destruct (starts_with P_eliminator s).
    { intros H; apply bind_ok in H as (a & _ & H); apply bind_ok in H as (l & E & H); apply Ok_inj in H; subst m. unfold elim_from_str in E.
      destruct (flat_map _ _); try discriminate. apply Ok_inj in E. subst l. apply elim_nodup. }
    destruct (starts_with P_converter s).
    { intros H; apply bind_ok in H as (a & _ & H); apply bind_ok in H as (l & E & H); apply Ok_inj in H; subst m. unfold conv_from_str in E.
      destruct (flat_map _ _); try discriminate. apply Ok_inj in E. subst l. apply (hm_collect_nodup N.eqb N.eqb_eq). }
    discriminate.
Qed.
Lemma yaml_proper : forall o k v m, modifier_from_yaml o k v = Ok m -> proper m.
Proof.
  intros o k v m H. unfold modifier_from_yaml in H. apply bind_ok in H as (key & _ & H).
    destruct (str_eqb key (lit "character_converter")).
    { apply bind_ok in H as (x & E & H). apply Ok_inj in H. subst m. unfold conv_from_yaml in E. apply bind_ok in E as (l & _ & E). apply bind_ok in E as (kvs & _ & E).
      apply Ok_inj in E. subst x. apply (hm_collect_nodup N.eqb N.eqb_eq). }
    destruct (str_eqb key (lit "character_eliminator")).
    { apply bind_ok in H as (x & E & H). apply Ok_inj in H. subst m. unfold elim_from_yaml in E. apply bind_ok in E as (l & _ & E). apply bind_ok in E as (cs & _ & E).
      apply Ok_inj in E. subst x. apply elim_nodup. }
    destruct (str_eqb key (lit "consecutive_character_reducer")); [apply bind_ok in H as (x & _ & H); apply Ok_inj in H; subst m; exact I|].
    destruct (str_eqb key (lit "ligature_translator")).
    { apply bind_ok in H as (x & E & H). apply Ok_inj in H. subst m. unfold lig_from_yaml in E. apply bind_ok in E as (l & _ & E). apply bind_ok in E as (kvs & _ & E).
      apply Ok_inj in E. subst x. apply (hm_collect_nodup str_eqb str_eqb_eq). }
    destruct (str_eqb key (lit "dotted_space_eliminator")); [unfold null_only in H; destruct (is_null v); [apply Ok_inj in H; subst m; exact I|discriminate H]|].
    destruct (str_eqb key (lit "trim")); [unfold null_only in H; destruct (is_null v); [apply Ok_inj in H; subst m; exact I|discriminate H]|].
    destruct (str_eqb key (lit "neologdn")); [|discriminate H].
    apply bind_ok in H as (x & E & H). apply Ok_inj in H. subst m. unfold null_only in E. destruct (is_null v); [exists o; exact E|discriminate E].
Qed.
Lemma yaml_list_proper : forall l o i ms, yaml_modifiers o i l = Ok ms -> Forall proper ms.
Proof.
  induction l as [|kv l IH]; intros o i ms H; cbn [yaml_modifiers] in H.
    - apply Ok_inj in H. subst. constructor.
    - destruct kv as [k v]. apply bind_ok in H as (m & E & H). apply bind_ok in H as (r & E' & H). apply Ok_inj in H. subst ms.
      constructor; [apply (yaml_proper _ _ _ _ E)|apply (IH _ _ _ E')].
Qed.
Lemma file_proper : forall o w p ms, load_file_with_ext o w p = Ok ms -> Forall proper ms.
Proof.
  intros o w p ms H. unfold load_file_with_ext in H. apply bind_ok in H as (ext & _ & H). apply bind_ok in H as (cc & Ec & H). apply bind_ok in H as (l & E & H).
    apply Ok_inj in H. subst ms. apply Forall_app. split.
    - destruct ext; cbn [load_modifiers] in E; [apply Ok_inj in E; subst; constructor|].
      unfold modifiers_from_yaml_path in E. apply bind_ok in E as (d & _ & E). unfold modifiers_of_yaml in E.
      repeat (match type of E with context [match ?x with _ => _ end] => destruct x end; try discriminate E);
        try (apply Ok_inj in E; subst; constructor); try (eapply yaml_list_proper; exact E).
      all: try (apply bind_ok in E as (l' & _ & E); eapply yaml_list_proper; exact E).
    - constructor; [|constructor]. unfold load_items_to_character_converter in Ec. apply bind_ok in Ec as (t & _ & Ec). apply (from_tables_nodup _ _ Ec).
Qed.
Lemma rc_proper : forall o w ms, load_rc o w = Ok ms -> Forall proper ms.
Proof.
  intros o w ms H. unfold load_rc, configuration_load in H. apply bind_ok in H as (ps & _ & H). destruct ps as [|p ps]; [apply Ok_inj in H; subst; constructor|].
    apply bind_ok in H as (r & E & H). apply Ok_inj in H. subst ms. revert E. generalize 0 as i, (p :: ps) as l. intros i l. revert i r.
    induction l as [|q l IH]; intros i r E; cbn [load_files] in E; [apply Ok_inj in E; subst; constructor|].
    apply bind_ok in E as (ms & E1 & E). apply bind_ok in E as (rest & E2 & E). apply Ok_inj in E. subst r. cbn [concat]. apply Forall_app.
    split; [apply (file_proper _ _ _ _ E1)|apply (IH _ _ E2)].
Qed.
Lemma table_proper ts ms : (m <- (cc <- from_tables ts ;; Ok (MConv cc)) ;; Ok [m]) = Ok ms -> Forall proper ms.
Proof.
  destruct (from_tables ts) as [cc| |] eqn:E; cbn [bind]; try discriminate. intros H. apply Ok_inj in H. subst ms.
  constructor; [apply (from_tables_nodup _ _ E)|constructor].
Qed.
Lemma preset_proper : forall o ms, chanoma_preset o = Ok ms -> Forall proper ms.
Proof. intros o ms. exact (table_proper _ ms). Qed.
Lemma neologdn_proper : forall o ms, chanoma_neologdn o = Ok ms -> Forall proper ms.
Proof.
  intros o ms H. rewrite chanoma_neologdn_eq in H. apply Ok_inj in H. rewrite <- H. clear H ms.
  apply Forall_cons; [|apply Forall_nil]. exact (ex_intro _ o (neologdn_new_eq o)).
Qed.
(** Every way to obtain a modifier gives a proper one. *)
Theorem C77_all_proper :
  (forall o s m, modifier_from_str o s = Ok m -> proper m) /\
  (forall o k v m, modifier_from_yaml o k v = Ok m -> proper m) /\
  (forall ts cc, from_tables ts = Ok cc -> proper (MConv cc)) /\
  (forall o w p ms, from_config_file o w p = Ok ms -> Forall proper ms) /\
  (forall o w ms, load_rc o w = Ok ms -> Forall proper ms) /\
  (forall o ms, chanoma_preset o = Ok ms -> Forall proper ms) /\
  (forall o ms, chanoma_neologdn o = Ok ms -> Forall proper ms).
Proof.
  split; [exact str_proper|]. split; [exact yaml_proper|]. split; [exact from_tables_nodup|]. split; [exact file_proper|]. split; [exact rc_proper|].
  split; [exact preset_proper|exact neologdn_proper].
Qed.
Print Assumptions C77_all_proper.

(** ** Reloading and the order of entries *)
Lemma yaml_any_order o o' k v : modifier_from_yaml o k v = modifier_from_yaml o' k v.
Proof. unfold modifier_from_yaml. rewrite (neologdn_new_eq o), (neologdn_new_eq o'). reflexivity. Qed.
Lemma yaml_list_any_order l : forall o o' i, yaml_modifiers o i l = yaml_modifiers o' i l.
Proof.
  induction l as [|[k v] l IH]; intros o o' i; cbn [yaml_modifiers]; [reflexivity|]. cbv beta.
  rewrite (IH o o'). destruct l as [|kv l]; rewrite (yaml_any_order (sub o i) (sub o' i)); reflexivity.
Qed.
Lemma file_any_order o o' w p : load_file_with_ext o w p = load_file_with_ext o' w p.
Proof.
  unfold load_file_with_ext. destruct (ext_from_path p) as [ext| |]; cbn [bind]; [|reflexivity..].
  destruct (load_items_to_character_converter w p ext); cbn [bind]; [|reflexivity..]. f_equal. destruct ext; cbn [load_modifiers]; [reflexivity|].
  unfold modifiers_from_yaml_path, modifiers_of_yaml. destruct (read_yaml w p) as [d| |]; cbn [bind]; [|reflexivity..].
  destruct (yget (lit "modifiers") d) as [x|]; [|reflexivity]. destruct (unwrap (as_mapping x)) as [l| |]; cbn [bind]; [|reflexivity..].
  apply yaml_list_any_order.
Qed.
Lemma files_any_order ps : forall o o' w i, load_files o w i ps = load_files o' w i ps.
Proof.
  induction ps as [|p ps IH]; intros o o' w i; cbn [load_files]; [reflexivity|].
  rewrite (file_any_order (sub o i) (sub o' i)), (IH o o'). reflexivity.
Qed.
(** Lists of modifiers: element by element; equal pipelines give the same results. *)
Theorem C77_lists_equal_iff : forall a b, Forall proper a -> Forall proper b -> (modifiers_eqb a b = true <-> Forall2 same_contents a b).
Proof.
  induction a as [|x a IH]; intros [|y b] Pa Pb; cbn [modifiers_eqb].
  - split; [constructor|reflexivity].
  - split; [discriminate|]. intros H. inversion H.
  - split; [discriminate|]. intros H. inversion H.
  - inversion Pa as [|? ? Px Pa']; subst. inversion Pb as [|? ? Py Pb']; subst. rewrite andb_true_iff, (eqb_contents x y Px Py), (IH b Pa' Pb').
    split; [intros [H1 H2]; constructor; assumption|]. intros H. inversion H; subst. auto.
Qed.
Print Assumptions C77_lists_equal_iff.
Theorem C77_lists_equal_alike : forall a b, Forall proper a -> Forall proper b -> modifiers_eqb a b = true ->
  forall s out, result a s out <-> result b s out.
Proof.
  induction a as [|x a IH]; intros [|y b] Pa Pb E s out; cbn [modifiers_eqb] in E; try discriminate; [tauto|].
  inversion Pa as [|? ? Px Pa']; subst. inversion Pb as [|? ? Py Pb']; subst. apply andb_true_iff in E as [E1 E2].
  pose proof (proj1 (C77_equal_alike x y Px Py E1)) as A. change (x :: a) with ([x] ++ a). change (y :: b) with ([y] ++ b). rewrite !result_app.
  split; intros (mid & H1 & H2); exists mid; (split; [apply A, H1|apply (IH b Pa' Pb' E2), H2]).
Qed.
Print Assumptions C77_lists_equal_alike.
Lemma all_equal ms : Forall proper ms -> modifiers_eqb ms ms = true.
Proof.
  induction 1 as [|m ms P _ IH]; [reflexivity|]. cbn [modifiers_eqb]. rewrite IH, andb_true_r. exact (proj1 (C77_equivalence m m m P P P)).
Qed.
(** Loading a configuration again gives equal modifiers, whatever the hash order. *)
Theorem C77_reload_equal : forall w,
  (forall o o' p ms ms', from_config_file o w p = Ok ms -> from_config_file o' w p = Ok ms' -> modifiers_eqb ms ms' = true) /\
  (forall o o' ms ms', load_rc o w = Ok ms -> load_rc o' w = Ok ms' -> modifiers_eqb ms ms' = true).
Proof.
  intros w. split.
  - intros o o' p ms ms' H H'. unfold from_config_file, configuration_from_path in H, H'. rewrite (file_any_order o' o) in H'. rewrite H in H'. apply Ok_inj in H'. subst ms'.
    apply all_equal. exact (file_proper o w p ms H).
  - intros o o' ms ms' H H'. assert (E : load_rc o w = load_rc o' w).
    { unfold load_rc, configuration_load. destruct (file_paths w) as [[|p ps]| |]; cbn [bind]; try reflexivity. rewrite (files_any_order (p :: ps) o o'). reflexivity. }
    rewrite E in H. rewrite H in H'. apply Ok_inj in H'. subst ms'. apply all_equal. exact (rc_proper o' w ms H).
Qed.
Print Assumptions C77_reload_equal.
Lemma Forall2_in_r {A B} (R : A -> B -> Prop) l l' : Forall2 R l l' -> forall y, In y l' -> exists x, In x l /\ R x y.
Proof.
  induction 1 as [|x y l l' H _ IH]; intros z I; [destruct I|]. destruct I as [->|I]; [exists x; split; [left; reflexivity|exact H]|].
  destruct (IH z I) as (w & J & K). exists w. split; [right; exact J|exact K].
Qed.
Lemma Forall2_in_l {A B} (R : A -> B -> Prop) l l' : Forall2 R l l' -> forall x, In x l -> exists y, In y l' /\ R x y.
Proof.
  induction 1 as [|x y l l' H _ IH]; intros z I; [destruct I|]. destruct I as [->|I]; [exists y; split; [left; reflexivity|exact H]|].
  destruct (IH z I) as (w & J & K). exists w. split; [right; exact J|exact K].
Qed.
Lemma traverse_incl {A B} (f : A -> outcome B) l l' ys ys' : traverse f l = Ok ys -> traverse f l' = Ok ys' -> incl l l' -> incl ys ys'.
Proof.
  intros H H' I y J. apply traverse_Ok_inv in H, H'. destruct (Forall2_in_r _ _ _ H y J) as (x & X & E).
  destruct (Forall2_in_l _ _ _ H' x (I x X)) as (y' & Y & E'). rewrite E in E'. apply Ok_inj in E'. subst. exact Y.
Qed.
Lemma Forall2_len {A B} (R : A -> B -> Prop) l l' : Forall2 R l l' -> length l = length l'.
Proof. induction 1; cbn; congruence. Qed.
Lemma collect_iff {K V} (keq : K -> K -> bool) (kiff : forall a b, keq a b = true <-> a = b) (kvs : list (K * V)) :
  length (hm_collect keq kvs) = length kvs -> NoDup (map fst kvs) /\ forall k v, In (k, v) (hm_collect keq kvs) <-> In (k, v) kvs.
Proof.
  intros L.
  assert (I0 : forall k v, In (k, v) (hm_collect keq kvs) -> In (k, v) kvs).
  { intros k v I. apply (hm_In_get keq kiff) in I; [|apply (hm_collect_nodup keq kiff)]. rewrite (hm_get_collect keq kiff) in I.
    apply (hm_get_In keq kiff) in I. apply in_rev, I. }
  assert (Ks : incl (map fst (hm_collect keq kvs)) (map fst kvs)).
  { intros k I. apply in_map_iff in I as ([k' v] & <- & I). apply in_map_iff. exists (k', v). split; [reflexivity|apply I0, I]. }
  assert (N : NoDup (map fst kvs)).
  { apply (@NoDup_incl_NoDup _ (map fst (hm_collect keq kvs))); [apply (hm_collect_nodup keq kiff)|rewrite !map_length; lia|exact Ks]. }
  split; [exact N|]. intros k v. split; [apply I0|]. apply NoDup_length_incl; [apply (NoDup_map_inv fst), (hm_collect_nodup keq kiff)|lia|].
  intros [k' v'] I. apply I0, I.
Qed.
(** In YAML, the order of entries makes no difference for equality; for conversions and ligatures provided no entry overwrites another. *)
Theorem C77_yaml_order : forall o o' m m' l l',
  (modifier_from_yaml o (YStr (lit "character_eliminator")) (YSeq l) = Ok m ->
   modifier_from_yaml o' (YStr (lit "character_eliminator")) (YSeq l') = Ok m' ->
   (forall x, In x l <-> In x l') -> modifier_eqb m m' = true).
Proof.
  intros o o' m m' l l' H H' E. change (bind (elim_from_yaml (YSeq l)) (fun x => Ok (MElim x)) = Ok m) in H.
  change (bind (elim_from_yaml (YSeq l')) (fun x => Ok (MElim x)) = Ok m') in H'.
  apply bind_ok in H as (a & Ha & H). apply Ok_inj in H. subst m. apply bind_ok in H' as (b & Hb & H'). apply Ok_inj in H'. subst m'.
  unfold elim_from_yaml in Ha, Hb. cbn [as_sequence unwrap bind] in Ha, Hb. apply bind_ok in Ha as (cs & Ta & Ha). apply Ok_inj in Ha. subst a.
  apply bind_ok in Hb as (ds & Tb & Hb). apply Ok_inj in Hb. subst b.
  apply eqb_contents; [apply elim_nodup|apply elim_nodup|]. cbn [same_contents]. intros c. unfold elim_from_chars. rewrite !(hs_insert_all_In N.eqb N.eqb_eq).
  assert (X : forall x l1 l2 c1 c2, traverse str_first l1 = Ok c1 -> traverse str_first l2 = Ok c2 -> (forall x, In x l1 <-> In x l2) -> In x c1 -> In x c2).
  { intros x l1 l2 c1 c2 T1 T2 S. apply (traverse_incl _ _ _ _ _ T1 T2). intros y. apply S. }
  split; intros [I|[]]; left; [apply (X c l l' cs ds)|apply (X c l' l ds cs)]; try assumption. intros x. symmetry. apply E.
Qed.
Print Assumptions C77_yaml_order.
Theorem C77_yaml_map_order : forall name o o' m m' l l', name = lit "character_converter" \/ name = lit "ligature_translator" ->
  modifier_from_yaml o (YStr name) (YMap l) = Ok m -> modifier_from_yaml o' (YStr name) (YMap l') = Ok m' -> Permutation l l' ->
  (match m with MConv a => length a | MLig a => length a | _ => 0 end) = length l -> modifier_eqb m m' = true.
Proof.
  intros name o o' m m' l l' [->| ->] H H' P L.
  - change (bind (conv_from_yaml (YMap l)) (fun x => Ok (MConv x)) = Ok m) in H. change (bind (conv_from_yaml (YMap l')) (fun x => Ok (MConv x)) = Ok m') in H'.
    apply bind_ok in H as (a & Ha & H). apply Ok_inj in H. subst m. apply bind_ok in H' as (b & Hb & H'). apply Ok_inj in H'. subst m'.
    unfold conv_from_yaml in Ha, Hb. cbn [as_mapping unwrap bind] in Ha, Hb. apply bind_ok in Ha as (cs & Ta & Ha). apply Ok_inj in Ha. subst a.
    apply bind_ok in Hb as (ds & Tb & Hb). apply Ok_inj in Hb. subst b.
    pose proof (Forall2_len _ _ _ (proj1 (traverse_Ok_inv _ _ _) Ta)) as La. pose proof (Forall2_len _ _ _ (proj1 (traverse_Ok_inv _ _ _) Tb)) as Lb.
    assert (I1 : incl cs ds) by (apply (traverse_incl _ _ _ _ _ Ta Tb); intros x; apply (Permutation_in _ P)).
    assert (I2 : incl ds cs) by (apply (traverse_incl _ _ _ _ _ Tb Ta); intros x; apply (Permutation_in _ (Permutation_sym P))).
    destruct (collect_iff N.eqb N.eqb_eq cs (eq_trans L La)) as (Na & Ca).
    assert (Nb : NoDup (map fst ds)).
    { apply (@NoDup_incl_NoDup _ (map fst cs)); [exact Na|rewrite !map_length, <- La, <- Lb, (Permutation_length P); reflexivity|apply incl_map, I1]. }
    apply eqb_contents; [apply (hm_collect_nodup N.eqb N.eqb_eq)|apply (hm_collect_nodup N.eqb N.eqb_eq)|]. cbn [same_contents]. intros c t. rewrite Ca. split.
    + intros I. apply (hm_get_In N.eqb N.eqb_eq). rewrite (hm_get_collect N.eqb N.eqb_eq). apply (hm_In_get N.eqb N.eqb_eq); [rewrite map_rev; apply NoDup_rev, Nb|].
      apply -> in_rev. apply I1, I.
    + intros I. apply (hm_In_get N.eqb N.eqb_eq) in I; [|apply (hm_collect_nodup N.eqb N.eqb_eq)]. rewrite (hm_get_collect N.eqb N.eqb_eq) in I.
      apply (hm_get_In N.eqb N.eqb_eq) in I. apply I2, in_rev, I.
  - change (bind (lig_from_yaml (YMap l)) (fun x => Ok (MLig x)) = Ok m) in H. change (bind (lig_from_yaml (YMap l')) (fun x => Ok (MLig x)) = Ok m') in H'.
    apply bind_ok in H as (a & Ha & H). apply Ok_inj in H. subst m. apply bind_ok in H' as (b & Hb & H'). apply Ok_inj in H'. subst m'.
    unfold lig_from_yaml in Ha, Hb. cbn [as_mapping unwrap bind] in Ha, Hb. apply bind_ok in Ha as (cs & Ta & Ha). apply Ok_inj in Ha. subst a.
    apply bind_ok in Hb as (ds & Tb & Hb). apply Ok_inj in Hb. subst b.
    pose proof (Forall2_len _ _ _ (proj1 (traverse_Ok_inv _ _ _) Ta)) as La. pose proof (Forall2_len _ _ _ (proj1 (traverse_Ok_inv _ _ _) Tb)) as Lb.
    assert (I1 : incl cs ds) by (apply (traverse_incl _ _ _ _ _ Ta Tb); intros x; apply (Permutation_in _ P)).
    assert (I2 : incl ds cs) by (apply (traverse_incl _ _ _ _ _ Tb Ta); intros x; apply (Permutation_in _ (Permutation_sym P))).
    destruct (collect_iff str_eqb str_eqb_eq cs (eq_trans L La)) as (Na & Ca).
    assert (Nb : NoDup (map fst ds)).
    { apply (@NoDup_incl_NoDup _ (map fst cs)); [exact Na|rewrite !map_length, <- La, <- Lb, (Permutation_length P); reflexivity|apply incl_map, I1]. }
    apply eqb_contents; [apply (hm_collect_nodup str_eqb str_eqb_eq)|apply (hm_collect_nodup str_eqb str_eqb_eq)|]. cbn [same_contents]. intros c t. rewrite Ca. split.
    + intros I. apply (hm_get_In str_eqb str_eqb_eq). rewrite (hm_get_collect str_eqb str_eqb_eq). apply (hm_In_get str_eqb str_eqb_eq); [rewrite map_rev; apply NoDup_rev, Nb|].
      apply -> in_rev. apply I1, I.
    + intros I. apply (hm_In_get str_eqb str_eqb_eq) in I; [|apply (hm_collect_nodup str_eqb str_eqb_eq)]. rewrite (hm_get_collect str_eqb str_eqb_eq) in I.
      apply (hm_get_In str_eqb str_eqb_eq) in I. apply I2, in_rev, I.
Qed.
Print Assumptions C77_yaml_map_order.
Example C77_case :
  modifier_eqb (MConv [(0x61, 0x62); (0x63, 0x64)]%N) (MConv [(0x63, 0x64); (0x61, 0x62)]%N) = true /\
  modifier_eqb (MConv [(0x61, 0x62)]%N) (MConv [(0x61, 0x62); (0x63, 0x64)]%N) = false /\
  modifier_eqb (MElim [0x61%N]) (MElim [0x62%N]) = false /\ modifier_eqb MDot MTrim = false /\
  (exists n, neologdn_new no_order = Ok n /\ modifier_eqb (MNeo n) (MNeo n) = true).
Proof. repeat split; try reflexivity. exists NEO. split; [apply neologdn_new_eq|]. vm_compute. reflexivity. Qed.
