(** Properties C53 (characters and bytes) and C55 (positions). *)
From Coq Require Import String Permutation.
From Verif Require Import Base BaseFacts Utf8 StrOps Corr Table Position Converter Spec ConverterFacts TableFacts ConverterProps CorrFacts LigFacts PropsConverter Utf8Props.
Local Open Scope string_scope.
Local Open Scope list_scope.

(** ** C53 *)
Theorem C53_injective : forall s t, valid_str s -> valid_str t -> encode s = encode t -> s = t.
Proof. exact encode_inj. Qed.
Print Assumptions C53_injective.
Theorem C53_order : forall s t, valid_str s -> valid_str t -> (lex_lt s t <-> lex_lt (encode s) (encode t)).
Proof. exact encode_lt_iff. Qed.
Print Assumptions C53_order.
Theorem C53_prefix : forall p s, valid_str p -> valid_str s -> (prefix_of p s <-> prefix_of (encode p) (encode s)).
Proof. exact prefix_encode. Qed.
Print Assumptions C53_prefix.
Theorem C53_replace : forall p v s b, p <> [] -> valid_str p -> valid_str s ->
  (replaced (fun k w => k = encode p /\ w = encode v) (encode s) b <-> exists out, b = encode out /\ replaced (fun k w => k = p /\ w = v) s out).
Proof. exact replaced_encode_iff. Qed.
Print Assumptions C53_replace.
(** The comparison, prefix test and search-and-replace the model runs on code points are the ones Rust runs on
    bytes: running the same algorithms on the encodings gives the encoded result. *)
Theorem C53_algorithms_on_bytes : forall s t, valid_str s -> valid_str t ->
  str_cmp s t = str_cmp (encode s) (encode t) /\
  starts_with s t = starts_with (encode s) (encode t) /\
  forall v, s <> [] -> encode (replace s v t) = replace (encode s) (encode v) (encode t).
Proof.
  intros s t Hs Ht. split; [|split].
  - destruct (str_cmp s t) eqn:E; symmetry.
    + apply str_cmp_Eq in E. subst. apply str_cmp_refl.
    + apply str_cmp_Lt. apply str_cmp_Lt in E. apply (C53_order s t Hs Ht), E.
    + apply str_cmp_Gt. apply str_cmp_Gt in E. apply (C53_order t s Ht Hs), E.
  - apply eq_true_iff_eq. rewrite !starts_with_prefix. apply C53_prefix; assumption.
  - intros v Hne. symmetry. apply replace_spec.
    + intros E. apply Hne. destruct s as [|c s]; [reflexivity|]. exfalso.
      pose proof (C53_injective (c :: s) [] Hs ltac:(constructor) E). discriminate.
    + apply (C53_replace s v t (encode (replace s v t)) Hne Hs Ht). exists (replace s v t). split; [reflexivity|].
      apply (replace_spec s v t (replace s v t) Hne). reflexivity.
Qed.
Print Assumptions C53_algorithms_on_bytes.
(** [str::len] and [char_indices] count bytes of the encoding. *)
Theorem C53_lengths : forall s, blen s = length (encode s) /\ length (char_indices s) = length s /\
  forall i c, nth_error s i = Some c -> nth_error (char_indices s) i = Some (length (encode (firstn i s)), c).
Proof.
  intros s. split; [symmetry; apply encode_length|]. split.
  - unfold char_indices. generalize 0. induction s as [|c s IH]; intros b; cbn; [reflexivity|]. rewrite IH. reflexivity.
  - exact (char_indices_nth s).
Qed.
Print Assumptions C53_lengths.
Example C53_case :
  encode [0x61; 0xE9; 0x3042; 0x1F600]%N = [0x61; 0xC3; 0xA9; 0xE3; 0x81; 0x82; 0xF0; 0x9F; 0x98; 0x80]%N /\
  valid_str [0x61; 0xE9; 0x3042; 0x1F600]%N /\
  lex_lt (encode [0xFF5E; 0x61]%N) (encode [0x1F600]%N) /\
  replace (encode [0x3042]%N) (encode [0xE9]%N) (encode [0x3042; 0x61; 0x3042]%N) = encode [0xE9; 0x61; 0xE9]%N.
Proof.
  split; [reflexivity|]. split; [repeat constructor|]. split; [apply (C53_order [0xFF5E; 0x61]%N [0x1F600]%N); [repeat constructor..|constructor; reflexivity]|reflexivity].
Qed.

(** ** C55 *)
Theorem C55_equivalence : (forall a, position_eqb a a = true) /\ (forall a b, position_eqb a b = true -> position_eqb b a = true) /\
  (forall a b c, position_eqb a b = true -> position_eqb b c = true -> position_eqb a c = true).
Proof.
  unfold position_eqb. split; [intros; apply Nat.eqb_refl|]. split.
  - intros a b. rewrite !Nat.eqb_eq. congruence.
  - intros a b c. rewrite !Nat.eqb_eq. congruence.
Qed.
Print Assumptions C55_equivalence.
Theorem C55_total_preorder : (forall a b, position_cmp b a = CompOpp (position_cmp a b)) /\
  (forall a b, position_cmp a b = Eq <-> position_eqb a b = true) /\
  (forall a b c, position_cmp a b <> Gt -> position_cmp b c <> Gt -> position_cmp a c <> Gt).
Proof.
  unfold position_cmp, position_eqb. split; [intros; apply Nat.compare_antisym|]. split.
  - intros a b. rewrite Nat.eqb_eq. apply Nat.compare_eq_iff.
  - intros a b c. rewrite !Nat.compare_le_iff. lia.
Qed.
Print Assumptions C55_total_preorder.
(** "Equal positions are the same position" is refuted, for all other fields at once. *)
Theorem C55_equal_refuted : exists a b, position_eqb a b = true /\ position_cmp a b = Eq /\ p_from a <> p_from b /\ p_to a <> p_to b /\
  p_length a <> p_length b /\ p_utf8_index a <> p_utf8_index b /\ p_utf8_length a <> p_utf8_length b.
Proof. exists (Pos (lit "a") (lit "b") 3 1 3 1), (Pos (lit "cc") [] 3 2 4 2). repeat split; discriminate. Qed.
Print Assumptions C55_equal_refuted.
Theorem C55_sorted : forall o cc s out ps, conv_modify_with_positions o cc s = Ok (out, ps) ->
  increasing (map p_index (sort_positions ps)) /\ forall p, In p (sort_positions ps) <-> In p ps.
Proof.
  intros o cc s out ps H. destruct (conv_positions_eq o cc s) as (ps' & E & P). rewrite E in H. injection H as _ <-. split.
  - assert (O : ordered index_lt (sort_positions ps')) by (apply sort_positions_ordered; rewrite P; apply spec_positions_from_index).
    induction (sort_positions ps') as [|x l IH]; [exact I|]. destruct O as [O1 O2]. cbn [map increasing]. split; [|apply IH, O2].
    destruct l as [|y l]; [exact I|]. cbn [map]. inversion O1; subst. assumption.
  - intros p. rewrite sort_positions_perm. reflexivity.
Qed.
Print Assumptions C55_sorted.
Theorem C55_sorted_order_independent : forall o o' cc s out out' ps ps',
  conv_modify_with_positions o cc s = Ok (out, ps) -> conv_modify_with_positions o' cc s = Ok (out', ps') ->
  sort_positions ps = sort_positions ps'.
Proof.
  intros o o' cc s out out' ps ps' H H'.
  destruct (conv_positions_eq o cc s) as (q & E & P). rewrite E in H. injection H as _ <-.
  destruct (conv_positions_eq o' cc s) as (q' & E' & P'). rewrite E' in H'. injection H' as _ <-.
  apply ordered_unique.
  - apply sort_positions_ordered. rewrite P. apply spec_positions_from_index.
  - apply sort_positions_ordered. rewrite P'. apply spec_positions_from_index.
  - rewrite !sort_positions_perm, P, P'. reflexivity.
Qed.
Print Assumptions C55_sorted_order_independent.
Example C55_case : exists o out ps, conv_modify_with_positions o [(0x61, 0x62); (0x63, 0x64)]%N (lit "aca") = Ok (out, ps) /\
  map p_index ps = [1; 0; 2] /\ map p_index (sort_positions ps) = [0; 1; 2].
Proof. exists (fun _ => [1]). do 2 eexists. split; [reflexivity|]. split; reflexivity. Qed.
