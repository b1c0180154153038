(** Properties C33-C38: correspondences and tables. *)
From Verif Require Import Base BaseFacts Corr Table Converter ModifierKind ChanomaModel Spec CorrFacts CorrProps.

Definition order0 : sched := fun _ => [].
Definition i1 := Item (lit "a") (lit "A").
Definition i2 := Item (lit "b") (lit "B").
Definition i3 := Item (lit "a") (lit "Z").

(** C33 *)
Theorem C33_add_is_sorted_union : forall o a b,
  ordered item_lt (corr_add o a b) /\
  forall it, In it (corr_add o a b) <-> In it (a (sub o 0)) \/ In it (b (sub o 1)).
Proof. exact C33_lemma. Qed.
Print Assumptions C33_add_is_sorted_union.
Theorem C33_add_algebra : forall o o' a b c P Q R,
  has_items a P -> has_items b Q -> has_items c R ->
  corr_add o a b = corr_add o' b a /\
  corr_add o (fun x => corr_add x a b) c = corr_add o' a (fun x => corr_add x b c) /\
  corr_add o (fun x => corr_add x a b) b = corr_add o' a b /\
  (ordered item_lt (a (sub o 0)) -> corr_add o a a = a (sub o 0)).
Proof. exact C33_algebra_lemma. Qed.
Print Assumptions C33_add_algebra.
Example C33_case : corr_add order0 (synth [i2; i3; i1]) (synth [i1; i2]) = [i1; i3; i2] /\
  has_items (synth [i2; i3; i1]) (fun it => In it [i2; i3; i1]).
Proof. split; [vm_compute; reflexivity|]. intros o it. reflexivity. Qed.

(** C34 *)
Theorem C34_sub_exact : forall o a b,
  ordered item_le (corr_sub o a b) /\
  forall it, count_occ item_eq_dec (corr_sub o a b) it =
     if in_dec item_eq_dec it (b (sub o 1)) then 0 else count_occ item_eq_dec (a (sub o 0)) it.
Proof. exact C34_lemma. Qed.
Print Assumptions C34_sub_exact.
Theorem C34_other_replacement_kept : forall o a b f t t', In (Item f t) (a (sub o 0)) ->
  (forall x, In (Item f x) (b (sub o 1)) -> x = t') -> t <> t' -> In (Item f t) (corr_sub o a b).
Proof. exact C34_keeps_lemma. Qed.
Print Assumptions C34_other_replacement_kept.
Example C34_case : corr_sub order0 (synth [i2; i1; i2; i3]) (synth [i1]) = [i3; i2; i2].
Proof. vm_compute. reflexivity. Qed.

(** C35 *)
Theorem C35_builder_is_set : forall t P, built t P ->
  ordered item_lt (table_items t) /\ forall it, In it (table_items t) <-> P it.
Proof. exact built_spec. Qed.
Print Assumptions C35_builder_is_set.
Theorem C35_builder_set_determines : forall t P t' P', built t P -> built t' P' ->
  (forall it, P it <-> P' it) -> table_items t = table_items t'.
Proof. exact C35_unique_lemma. Qed.
Print Assumptions C35_builder_set_determines.
Definition ex_built : table :=
  table_remove order0 (table_add order0 (table_add order0 table_new (synth [i2; i3])) (synth [i1; i2])) (synth [i2]).
Example C35_case : table_items ex_built = [i1; i3] /\ exists P, built ex_built P.
Proof.
  split; [vm_compute; reflexivity|]. unfold ex_built. eexists.
  apply built_remove with (Q := fun it => In it [i2]); [|intros o it; reflexivity].
  apply built_add with (Q := fun it => In it [i1; i2]); [|intros o it; reflexivity].
  apply built_add with (Q := fun it => In it [i2; i3]); [|intros o it; reflexivity]. apply built_new.
Qed.

(** C36 *)
Theorem C36_greatest_item_decides : forall dbg o t P c s, built t P -> chanoma_from_table t = Ok c ->
  exists out, normalize dbg o c s = Ok out /\ pointwise (greatest_match P) s out.
Proof. exact C36_lemma. Qed.
Print Assumptions C36_greatest_item_decides.
Theorem C36_history_independent : forall t P t' P', built t P -> built t' P' -> (forall it, P it <-> P' it) ->
  chanoma_from_table t = chanoma_from_table t'.
Proof. exact C36_history_lemma. Qed.
Print Assumptions C36_history_independent.
Example C36_case : exists c, chanoma_from_table ex_built = Ok c /\ normalize false order0 c (lit "aba") = Ok (lit "ZbZ").
Proof. eexists. split; vm_compute; reflexivity. Qed.

(** C37 *)
Theorem C37_equality_is_list_equality : forall o a b, corr_eqb o a b = true <-> a (sub o 0) = b (sub o 1).
Proof. exact C37_lemma. Qed.
Print Assumptions C37_equality_is_list_equality.
Theorem C37_equality_on_sorted : forall o a b, ordered item_lt (a (sub o 0)) -> ordered item_lt (b (sub o 1)) ->
  (corr_eqb o a b = true <-> forall it, In it (a (sub o 0)) <-> In it (b (sub o 1))).
Proof. exact C37_sets_lemma. Qed.
Print Assumptions C37_equality_on_sorted.
Theorem C37_equality_is_set_equality_refuted : exists o a b,
  (forall o', Permutation (a o') (b o')) /\ corr_eqb o a b = false.
Proof.
  exists order0, (synth [i1; i2]), (synth [i2; i1]). split; [|vm_compute; reflexivity].
  intros o'. apply perm_swap.
Qed.
Print Assumptions C37_equality_is_set_equality_refuted.
Example C37_case : ordered item_lt [i1; i3; i2].
Proof.
  change [i1; i3; i2] with (corr_add order0 (synth [i2; i3; i1]) (synth [i1; i2])).
  apply C33_add_is_sorted_union.
Qed.

(** C38 *)
Theorem C38_item_map_exact : forall items,
  ordered lex_lt (map fst (item_map items)) /\
  (forall k vs, In (k, vs) (item_map items) <->
     vs = map from (filter (fun it => if str_eq_dec (to it) k then true else false) items) /\ vs <> []) /\
  Permutation (flat_map (fun kv => map (fun v => Item v (fst kv)) (snd kv)) (item_map items)) items.
Proof. exact C38_lemma. Qed.
Print Assumptions C38_item_map_exact.
Example C38_case : item_map [i2; i1; Item (lit "c") (lit "B"); i3] =
  [(lit "A", [lit "a"]); (lit "B", [lit "b"; lit "c"]); (lit "Z", [lit "a"])].
Proof. vm_compute. reflexivity. Qed.
