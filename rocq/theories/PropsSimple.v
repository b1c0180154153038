(** Properties C10-C19: elimination, run reduction, dotted-space elimination, trim. *)
From Verif Require Import Base Utf8 StrOps Corr Position Table Converter Eliminator Reducer Dotted TrimMod
  ModifierKind ChanomaModel Spec ConverterProps SimpleProps.

Definition order0 : sched := fun _ => [].

(** C10 *)
Theorem C10_elimination_exact : forall dbg o l s,
  normalize dbg o [MElim (elim_from_chars l)] s =
  Ok (filter (fun c => if in_dec N.eq_dec c l then false else true) s).
Proof. exact C10_exact_lemma. Qed.
Print Assumptions C10_elimination_exact.
Theorem C10_elimination_multiplicity : forall dbg o l s out c,
  normalize dbg o [MElim (elim_from_chars l)] s = Ok out ->
  count_occ N.eq_dec out c = if in_dec N.eq_dec c l then 0 else count_occ N.eq_dec s c.
Proof. exact C10_count_lemma. Qed.
Print Assumptions C10_elimination_multiplicity.
Theorem C10_elimination_set_only : forall dbg o dbg' o' l l' s, (forall c, In c l <-> In c l') ->
  normalize dbg o [MElim (elim_from_chars l)] s = normalize dbg' o' [MElim (elim_from_chars l')] s.
Proof. exact C10_set_lemma. Qed.
Print Assumptions C10_elimination_set_only.
Theorem C10_elimination_idempotent : forall dbg o dbg' o' l s out,
  normalize dbg o [MElim (elim_from_chars l)] s = Ok out ->
  normalize dbg' o' [MElim (elim_from_chars l)] out = Ok out.
Proof. exact C10_idem_lemma. Qed.
Print Assumptions C10_elimination_idempotent.
Example C10_case : normalize false order0 [MElim (elim_from_chars (lit "ab~a"))] (lit "banana~x") = Ok (lit "nnx").
Proof. vm_compute. reflexivity. Qed.
Example C10_set_case : forall c, In c (lit "aba") <-> In c (lit "ba").
Proof. intros c. cbn. tauto. Qed.

(** C11 *)
Theorem C11_reduction_exact : forall dbg o c s out,
  normalize dbg o [MRed c] s = Ok out <-> collapsed c s out.
Proof. exact C11_exact_lemma. Qed.
Print Assumptions C11_reduction_exact.
Theorem C11_reduction_stable : forall dbg o dbg' o' c s out,
  normalize dbg o [MRed c] s = Ok out ->
  (forall a b, out <> a ++ c :: c :: b) /\ normalize dbg' o' [MRed c] out = Ok out.
Proof. exact C11_stable_lemma. Qed.
Print Assumptions C11_reduction_stable.
Example C11_case : normalize false order0 [MRed 97%N] (lit "aaabaaccaa") = Ok (lit "abacca").
Proof. vm_compute. reflexivity. Qed.

(** C12 *)
Theorem C12_reduction_texts_agree : forall o c s,
  exists out ps, normalize_with_positions o [MRed c] s = Ok [Record (MRed c) out ps] /\
  forall dbg o', normalize dbg o' [MRed c] s = Ok out.
Proof. exact C12_lemma. Qed.
Print Assumptions C12_reduction_texts_agree.
Example C12_case : normalize_with_positions order0 [MRed 97%N] (lit "baabaaa") =
  Ok [Record (MRed 97%N) (lit "baba") [Pos (lit "aa") (lit "a") 2 2 3 2; Pos (lit "aaa") (lit "a") 4 3 4 3]].
Proof. vm_compute. reflexivity. Qed.

(** C13 *)
Theorem C13_one_position_per_run : forall o c s out ps,
  normalize_with_positions o [MRed c] s = Ok [Record (MRed c) out ps] ->
  exists rs, all_runs c s rs /\
    Forall2 (fun '(i, n) p => p_from p = cut i n s /\ p_to p = [c] /\
       p_length p = length (encode (cut i n s)) /\ p_utf8_length p = n /\ p_length p <= length (encode s)) rs ps.
Proof. exact C13_lemma. Qed.
Print Assumptions C13_one_position_per_run.

(** C14 *)
Theorem C14_positions_exact : forall o c s out ps,
  normalize_with_positions o [MRed c] s = Ok [Record (MRed c) out ps] ->
  exists rs, all_runs c s rs /\
    Forall2 (fun '(i, n) p =>
       (exists out', collapsed c (firstn (i + n) s) out' /\ p_index p = length (encode out')) /\
       (i + n < length s -> p_utf8_index p = i + n) /\
       (i + n = length s -> p_utf8_index p + n = length (encode s))) rs ps.
Proof. exact C14_lemma. Qed.
Print Assumptions C14_positions_exact.
(** Neither pair of fields cuts [from] out of the input (bytes or characters). *)
Theorem C14_positions_locate_run_refuted : exists o c s out p,
  normalize_with_positions o [MRed c] s = Ok [Record (MRed c) out [p]] /\
  cut (p_index p) (p_length p) (encode s) <> encode (p_from p) /\
  cut (p_utf8_index p) (p_length p) (encode s) <> encode (p_from p) /\
  cut (p_index p) (p_utf8_length p) s <> p_from p /\
  cut (p_utf8_index p) (p_utf8_length p) s <> p_from p.
Proof.
  exists order0, 97%N, (lit "baab"), (lit "bab"), (Pos (lit "aa") (lit "a") 2 2 3 2).
  split; [vm_compute; reflexivity|]. repeat split; vm_compute; discriminate.
Qed.
Print Assumptions C14_positions_locate_run_refuted.

(** C15 *)
Theorem C15_dotted_exact : forall dbg o s out,
  normalize dbg o [MDot] s = Ok out <-> undotted None s out.
Proof. exact C15_lemma. Qed.
Print Assumptions C15_dotted_exact.
Example C15_case : normalize false order0 [MDot] (lit "  a  b- c 1 ") = Ok (lit "a b-c 1").
Proof. vm_compute. reflexivity. Qed.

(** C16 *)
Theorem C16_dotted_shape : forall dbg o dbg' o' s out, normalize dbg o [MDot] s = Ok out ->
  spaces_between out /\ hd_error out <> Some space /\ hd_error (rev out) <> Some space /\
  (forall a b, out <> a ++ space :: space :: b) /\ normalize dbg' o' [MDot] out = Ok out.
Proof. exact C16_shape_lemma. Qed.
Print Assumptions C16_dotted_shape.
Theorem C16_dotted_fixpoints : forall dbg o s, normalize dbg o [MDot] s = Ok s <-> spaces_between s.
Proof. exact C16_fix_lemma. Qed.
Print Assumptions C16_dotted_fixpoints.
Theorem C16_dotted_subsumes : forall dbg o s,
  normalize dbg o [MTrim; MDot] s = normalize dbg o [MDot] s /\
  normalize dbg o [MRed space; MDot] s = normalize dbg o [MDot] s.
Proof. exact C16_subsumes_lemma. Qed.
Print Assumptions C16_dotted_subsumes.
Example C16_case : normalize true order0 [MTrim; MDot] (lit " a  b ") = Ok (lit "a b").
Proof. vm_compute. reflexivity. Qed.

(** C17 *)
Theorem C17_trim_exact : forall dbg o s out, normalize dbg o [MTrim] s = Ok out <-> trimmed s out.
Proof. exact C17_lemma. Qed.
Print Assumptions C17_trim_exact.
(** U+3000 and tab are kept. *)
Example C17_case : normalize false order0 [MTrim] ([32; 32; 0x3000; 97; 32; 98; 9; 32]%N) = Ok [0x3000; 97; 32; 98; 9]%N.
Proof. vm_compute. reflexivity. Qed.

(** C18 *)
Theorem C18_trim_positions_exact : forall o s, exists a out b,
  trim_parts s a out b /\
  normalize_with_positions o [MTrim] s = Ok [Record MTrim out (trim_positions a out b)] /\
  forall dbg o', normalize dbg o' [MTrim] s = Ok out.
Proof. exact C18_lemma. Qed.
Print Assumptions C18_trim_positions_exact.
Theorem C18_trim_positions_replay : forall o s out ps,
  normalize_with_positions o [MTrim] s = Ok [Record MTrim out ps] ->
  fold_right delete_chars s ps = out /\ fold_right delete_bytes (encode s) ps = encode out /\
  forall p, In p ps -> p_to p = [] /\ p_from p <> [] /\
     cut (p_utf8_index p) (p_utf8_length p) s = p_from p /\
     cut (p_index p) (p_length p) (encode s) = encode (p_from p).
Proof. exact C18_replay_lemma. Qed.
Print Assumptions C18_trim_positions_replay.
Example C18_case : normalize_with_positions order0 [MTrim] (lit "  " ++ [0x3042]%N ++ lit " ") =
  Ok [Record MTrim [0x3042]%N [Pos (lit "  ") [] 0 2 0 2; Pos (lit " ") [] 5 1 3 1]].
Proof. vm_compute. reflexivity. Qed.

(** C19 *)
Theorem C19_trim_index_is_byte_offset : forall o s out ps p,
  normalize_with_positions o [MTrim] s = Ok [Record MTrim out ps] -> In p ps ->
  cut (p_index p) (p_length p) (encode s) = encode (p_from p).
Proof. intros o s out ps p H Hp. apply (C18_replay_lemma o s out ps H). exact Hp. Qed.
Print Assumptions C19_trim_index_is_byte_offset.
Theorem C19_conversion_index_is_byte_offset_refuted : exists o t c s m out p ps,
  chanoma_from_table t = Ok c /\
  normalize_with_positions o c s = Ok [Record m out ps] /\ In p ps /\
  cut (p_index p) (p_length p) (encode s) <> encode (p_from p).
Proof.
  exists order0, (table_from_corr [Item (lit "a") (lit "b")] OriginNew). eexists.
  exists ([0x3042]%N ++ lit "a"). eexists. eexists. exists (Pos (lit "a") (lit "b") 1 1 3 1). eexists.
  split; [vm_compute; reflexivity|]. split; [vm_compute; reflexivity|]. split; [left; reflexivity|].
  vm_compute. discriminate.
Qed.
Print Assumptions C19_conversion_index_is_byte_offset_refuted.
Theorem C19_conversion_index_is_char_index : forall o t c s m out ps p,
  chanoma_from_table t = Ok c ->
  normalize_with_positions o c s = Ok [Record m out ps] -> In p ps ->
  cut (p_utf8_index p) (p_length p) (encode s) = encode (p_from p) /\
  cut (p_index p) (p_utf8_length p) s = p_from p.
Proof. intros o t c s m out ps p H E Hp. apply (C03_replay o t c s m out ps ps H E (Permutation_refl _)). exact Hp. Qed.
Print Assumptions C19_conversion_index_is_char_index.
Theorem C19_reduction_index_is_byte_offset_refuted : exists o c s out p ps,
  normalize_with_positions o [MRed c] s = Ok [Record (MRed c) out ps] /\ In p ps /\
  cut (p_index p) (p_length p) (encode s) <> encode (p_from p).
Proof.
  exists order0, 97%N, (lit "baab"). eexists. exists (Pos (lit "aa") (lit "a") 2 2 3 2). eexists.
  split; [vm_compute; reflexivity|]. split; [left; reflexivity|]. vm_compute. discriminate.
Qed.
Print Assumptions C19_reduction_index_is_byte_offset_refuted.
