(** Properties C07-C09, C54, C57: character tables. *)
From Verif Require Import Base Corr CharsetData Table Charset ModifierKind ChanomaModel CharSpec Spec
  CharsetFacts NeoProps CjkProps PropsConverter.

(** C07 *)
Theorem C07_preset_builds : forall o, exists ch, chanoma_preset o = Ok ch.
Proof. exact C07_builds. Qed.
Print Assumptions C07_preset_builds.
Theorem C07_preset_exact : forall o ch, chanoma_preset o = Ok ch ->
  forall dbg o' s, exists out, normalize dbg o' ch s = Ok out /\ pointwise preset_rel s out.
Proof. exact C07_lemma. Qed.
Print Assumptions C07_preset_exact.
(** ＡＢＣ　ｱ「＝” *)
Example C07_case : exists ch, chanoma_preset other_order = Ok ch /\
  normalize false no_order ch [0xFF21; 0xFF22; 0xFF43; 0x3000; 0xFF71; 0xFF62; 0xFF1D; 0x201D; 0xFF02; 0x3042]%N
  = Ok [0x41; 0x42; 0x63; 0x20; 0x30A2; 0x300C; 0x3D; 0x22; 0xFF02; 0x3042]%N.
Proof. eexists. rewrite chanoma_preset_eq. split; [reflexivity|]. vm_compute. reflexivity. Qed.
Example C07_rel_case : preset_rel 0xFF21%N 0x41%N /\ preset_rel 0xFF71%N 0x30A2%N.
Proof. split; [apply (pr_fullwidth 0xFF21%N)|apply (pr_halfwidth 16)]; [repeat split; discriminate|reflexivity|discriminate]. Qed.

(** C08 *)
Theorem C08_preset_idempotent : forall o ch, chanoma_preset o = Ok ch ->
  forall dbg o1 s out, normalize dbg o1 ch s = Ok out ->
  (forall c t, In c out -> ~ preset_rel c t) /\ forall dbg' o2, normalize dbg' o2 ch out = Ok out.
Proof. exact C08_lemma. Qed.
Print Assumptions C08_preset_idempotent.

(** C09 *)
Theorem C09_halfwidth_unchanged : forall o ch, chanoma_preset o = Ok ch ->
  forall dbg o' c, (0xFF61 <= c <= 0xFF9F)%N ->
  (normalize dbg o' ch [c] = Ok [c] <-> c = 0xFF70%N \/ c = 0xFF9E%N \/ c = 0xFF9F%N).
Proof. exact C09_lemma. Qed.
Print Assumptions C09_halfwidth_unchanged.
Theorem C09_output_fullwidth_refuted : exists o ch s out,
  chanoma_preset o = Ok ch /\ normalize false o ch s = Ok out /\
  exists c, In c out /\ (0xFF61 <= c <= 0xFF9F)%N.
Proof.
  exists no_order, [MConv PRESET], [0xFF76; 0xFF9E]%N, [0x30AB; 0xFF9E]%N.
  rewrite chanoma_preset_eq. split; [reflexivity|]. split; [vm_compute; reflexivity|].
  exists 0xFF9E%N. split; [right; left; reflexivity|split; discriminate].
Qed.
Print Assumptions C09_output_fullwidth_refuted.

(** C54 *)
Theorem C54_block_covered : forall o c,
  (exists v, In (Item [c] v) (CJK_COMPATIBILITIES o)) <-> (0x3300 <= c <= 0x33FF)%N /\ c <> 0x33A4%N.
Proof. exact C54_block. Qed.
Print Assumptions C54_block_covered.
Theorem C54_conflict_only_33A3 : forall o c v v',
  In (Item [c] v) (CJK_COMPATIBILITIES o) -> In (Item [c] v') (CJK_COMPATIBILITIES o) -> v <> v' -> c = 0x33A3%N.
Proof. exact C54_unique. Qed.
Print Assumptions C54_conflict_only_33A3.
Theorem C54_converter_cuts : forall o ch,
  chanoma_from_table (table_add o table_new CJK_COMPATIBILITIES) = Ok ch ->
  forall dbg o' s, exists out, normalize dbg o' ch s = Ok out /\
    pointwise (fun c t => exists v, cjk_rel c (t :: v) /\ (c = 0x33A3%N -> t :: v = lit "mm3")) s out.
Proof. exact C54_lemma. Qed.
Print Assumptions C54_converter_cuts.
Theorem C54_expanded_refuted : exists o ch c v,
  chanoma_from_table (table_add o table_new CJK_COMPATIBILITIES) = Ok ch /\
  In (Item [c] v) (CJK_COMPATIBILITIES o) /\ normalize false o ch [c] <> Ok v.
Proof.
  exists no_order, [MConv CJK_conv], 0x339C%N, (lit "mm"). rewrite cjk_chanoma_eq. split; [reflexivity|].
  split; [rewrite CJK_eq; apply item_mem_In; vm_compute; reflexivity|].
  vm_compute. discriminate.
Qed.
Print Assumptions C54_expanded_refuted.
Example C54_case : In (Item [0x33A3]%N (lit "mm3")) (CJK_COMPATIBILITIES no_order) /\
  In (Item [0x33A3]%N (lit "cm3")) (CJK_COMPATIBILITIES no_order) /\
  normalize false no_order [MConv CJK_conv] [0x33A3; 0x33A4; 0x3300]%N = Ok [0x6D; 0x33A4; 0x30A2]%N.
Proof.
  rewrite CJK_eq. split; [apply item_mem_In; vm_compute; reflexivity|].
  split; [apply item_mem_In; vm_compute; reflexivity|]. vm_compute. reflexivity.
Qed.

(** C57 *)
Theorem C57_cjk_against_unicode : forall o it,
  In it (CJK_COMPATIBILITIES o) <-> exists c v, it = Item [c] v /\ cjk_rel c v.
Proof. exact C57_lemma. Qed.
Print Assumptions C57_cjk_against_unicode.
Theorem C57_cjk_is_nfkc_refuted : exists i form, nth_error cjk_forms i = Some form /\
  forall o, ~ In (Item [0x3300 + N.of_nat i]%N form) (CJK_COMPATIBILITIES o).
Proof.
  exists 159, (lit "mm2"). split; [reflexivity|]. intros o. rewrite CJK_eq. intros H.
  apply item_mem_In in H. vm_compute in H. discriminate.
Qed.
Print Assumptions C57_cjk_is_nfkc_refuted.
