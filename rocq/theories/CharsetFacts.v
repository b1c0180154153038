From Verif Require Import Base BaseFacts Corr CharsetData Table Charset CorrFacts TableFacts Converter
  Eliminator Ligature Neologdn ModifierKind ChanomaModel.

(** Correspondences whose items do not depend on hash order. *)
Definition indep (c : corr) : Prop := forall o o', c o = c o'.
Lemma linear_indep f t : indep (linear f t).
Proof. intros o o'. reflexivity. Qed.

Lemma add_chain_indep acc l : indep acc -> Forall indep l -> l <> [] -> indep (fun o => add_chain o 0 acc l).
Proof.
  intros Ha Hl Hne o o'. rewrite !add_chain_usort_gen by assumption.
  f_equal. f_equal; [apply Ha|]. f_equal. apply map_ext_in. intros c Hc.
  rewrite Forall_forall in Hl. apply (Hl c Hc).
Qed.

Ltac all_linear := repeat (apply Forall_cons; [intros ? ?; reflexivity|]); apply Forall_nil.
Lemma DIGITS_indep : indep DIGITS.
Proof. apply add_chain_indep; [intros ? ?; reflexivity|unfold DIGITS_terms; all_linear|discriminate]. Qed.
Lemma PUNCTUATIONS_indep : indep PUNCTUATIONS.
Proof. apply add_chain_indep; [intros ? ?; reflexivity|unfold PUNCTUATIONS_terms; all_linear|discriminate]. Qed.
Lemma ALPHABETS_indep : indep ALPHABETS.
Proof. apply add_chain_indep; [intros ? ?; reflexivity|unfold ALPHABETS_terms; all_linear|discriminate]. Qed.
Lemma KANAS_indep : indep KANAS.
Proof. apply add_chain_indep; [intros ? ?; reflexivity|unfold KANAS_terms; all_linear|discriminate]. Qed.
Lemma CJK_indep : indep CJK_COMPATIBILITIES.
Proof. apply add_chain_indep; [intros ? ?; reflexivity|unfold CJK_COMPATIBILITIES_terms; all_linear|discriminate]. Qed.
Lemma ALL_indep : indep ALL.
Proof.
  apply add_chain_indep; [apply DIGITS_indep| |discriminate].
  repeat constructor; [apply PUNCTUATIONS_indep|apply ALPHABETS_indep|apply KANAS_indep].
Qed.

Definition o_id : sched := fun _ => [].
Definition ALL_items : list item := Eval vm_compute in ALL o_id.
Lemma ALL_eq o : ALL o = ALL_items.
Proof. rewrite (ALL_indep o o_id). vm_compute. reflexivity. Qed.

Definition CJK_items : list item :=
  Eval vm_compute in usort (Cjk_SQUARE_APAATO o_id ++ concat (map (fun c : corr => c o_id) CJK_COMPATIBILITIES_terms)).
Lemma CJK_eq o : CJK_COMPATIBILITIES o = CJK_items.
Proof.
  unfold CJK_COMPATIBILITIES. rewrite add_chain_usort_gen.
  - vm_compute. reflexivity.
  - discriminate.
  - unfold CJK_COMPATIBILITIES_terms; all_linear.
  - reflexivity.
Qed.

(** ** The preset *)
Definition PRESET : converter := Eval vm_compute in hm_collect N.eqb (pairs_of ALL_items).
Lemma builder_preset_new o : builder_preset o table_new = Table ALL_items OriginNew.
Proof.
  unfold builder_preset, table_add, table_new. cbn [t_corr t_origin]. f_equal.
  rewrite corr_add_assign_usort, ALL_eq. vm_compute. reflexivity.
Qed.
Lemma all_characters_set_eq o : all_characters_set o = Ok (MConv PRESET).
Proof. unfold all_characters_set. rewrite builder_preset_new. vm_compute. reflexivity. Qed.
Lemma chanoma_preset_eq o : chanoma_preset o = Ok [MConv PRESET].
Proof. unfold chanoma_preset. rewrite all_characters_set_eq. reflexivity. Qed.

(** ** neologdn *)
Definition NEO_items : list item := Eval vm_compute in neologdn_corr o_id.
Lemma neologdn_corr_eq o : neologdn_corr o = NEO_items.
Proof.
  assert (G : forall o, neologdn_corr o =
     usort (usort (sort_items (filter (not_in (Punctuations_EQUAL_SIGN o_id)) ALL_items) ++ CHOONPUS o_id) ++ HYPHENS o_id)).
  { intros o'. unfold neologdn_corr. rewrite corr_add_usort. unfold synth at 1. rewrite corr_add_usort. unfold synth.
    unfold corr_sub. rewrite ALL_eq. reflexivity. }
  rewrite G. vm_compute. reflexivity.
Qed.
Definition NEO : neologdn := Eval vm_compute in
  Neo (hm_collect N.eqb (pairs_of NEO_items)) CHOONPU (elim_from_chars TILDES) neologdn_lig.
Lemma neologdn_new_eq o : neologdn_new o = Ok NEO.
Proof. unfold neologdn_new. rewrite neologdn_corr_eq. vm_compute. reflexivity. Qed.
Lemma chanoma_neologdn_eq o : chanoma_neologdn o = Ok [MNeo NEO].
Proof. unfold chanoma_neologdn. rewrite neologdn_new_eq. reflexivity. Qed.
