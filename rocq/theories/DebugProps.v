(** The grammar of DebugSpec against the model (C96). *)
From Coq Require Import String.
From Verif Require Import Base BaseFacts StrOps Position Converter Eliminator Reducer Ligature Neologdn ModifierKind PathModel ChanomaModel
  Configuration Log DebugText DebugSpec.
Local Open Scope string_scope.
Local Open Scope list_scope.

(** ** Numerals *)
Lemma digit_nth n : (n < 16)%N -> nth_error DIGITS (N.to_nat n) = Some (digit_char n).
Proof.
  intros H. assert (E : Forall (fun k => nth_error DIGITS k = Some (digit_char (N.of_nat k))) (seq 0 16)) by (vm_compute; repeat constructor).
  rewrite Forall_forall in E. specialize (E (N.to_nat n)). rewrite N2Nat.id in E. apply E. apply in_seq. lia.
Qed.
Lemma numeral_fuel b f : 2 <= b <= 16 -> forall n, (n < 2 ^ N.of_nat f)%N -> f > 0 -> numeral b (N.to_nat n) (digits_fuel (N.of_nat b) f n).
Proof.
  intros Hb. induction f as [|f IH]; intros n Hn Hf; [lia|]. cbn [digits_fuel]. destruct (N.ltb_spec n (N.of_nat b)) as [L|L].
  - apply num_digit; [lia|apply digit_nth; lia].
  - pose proof (N.div_mod n (N.of_nat b) ltac:(lia)) as D. pose proof (N.mod_upper_bound n (N.of_nat b) ltac:(lia)) as M.
    set (q := (n / N.of_nat b)%N) in *. set (r := (n mod N.of_nat b)%N) in *.
    assert (E : N.to_nat n = N.to_nat q * b + N.to_nat r) by lia. rewrite E.
    assert (Q : (q < 2 ^ N.of_nat f)%N).
    { apply N.div_lt_upper_bound; [lia|]. replace (N.of_nat (S f)) with (N.succ (N.of_nat f)) in Hn by lia. rewrite N.pow_succ_r' in Hn. nia. }
    assert (Q0 : (0 < q)%N) by (apply N.div_str_pos; lia).
    apply num_more; [lia|lia| |apply digit_nth; lia]. apply IH; [exact Q|]. destruct f; [cbn in Q; lia|lia].
Qed.
Lemma numeral_digits b n : 2 <= b <= 16 -> numeral b (N.to_nat n) (digits (N.of_nat b) n).
Proof.
  intros Hb. apply numeral_fuel; [exact Hb| |lia]. replace (N.of_nat (S (N.to_nat (N.size n)))) with (N.succ (N.size n)) by lia.
  rewrite N.pow_succ_r'. pose proof (N.size_gt n). lia.
Qed.
Lemma numeral_det b n t : numeral b n t -> forall t', numeral b n t' -> t = t'.
Proof.
  induction 1 as [n c L E|q r t c Q R H IH E]; intros t' H'.
  - inversion H' as [n' c' L' E'|q r t c' Q R H0 E' X]; subst; [congruence|]. destruct q; [lia|]. nia.
  - inversion H' as [n' c' L' E'|q' r' t0 c' Q' R' H0 E' X]; subst; [destruct q; [lia|]; nia|].
    destruct (Nat.div_mod_unique b q q' r r' R R') as [-> ->]; [lia|]. rewrite (IH _ H0). congruence.
Qed.

(** ** Characters *)
Lemma shown_escape sh sq dq c : shown sh sq dq c (escape_debug sh sq dq c).
Proof.
  unfold escape_debug.
  destruct (N.eqb_spec c 0) as [->|D0]; [apply sh_name; cbn; tauto|]. destruct (N.eqb_spec c 9) as [->|D1]; [apply sh_name; cbn; tauto|].
  destruct (N.eqb_spec c 13) as [->|D2]; [apply sh_name; cbn; tauto|]. destruct (N.eqb_spec c 10) as [->|D3]; [apply sh_name; cbn; tauto|].
  destruct (N.eqb_spec c 92) as [->|D4]; [apply sh_name; cbn; tauto|].
  assert (N : ~ In c [0; 9; 10; 13; 92]%N) by (cbn; intuition congruence).
  destruct (N.eqb c 34 && dq)%bool eqn:E1.
  { apply andb_true_iff in E1 as [E1 E2]. apply N.eqb_eq in E1. subst c. apply sh_double, E2. }
  destruct (N.eqb c 39 && sq)%bool eqn:E2.
  { apply andb_true_iff in E2 as [E2 E3]. apply N.eqb_eq in E2. subst c. apply sh_single, E3. }
  assert (A : c = 34%N -> dq = false) by (intros ->; exact E1). assert (B : c = 39%N -> sq = false) by (intros ->; exact E2).
  destruct (sh c) eqn:S; [apply sh_itself; assumption|]. apply sh_code; try assumption. apply (numeral_digits 16). lia.
Qed.
Lemma shown_det sh sq dq c t t' : shown sh sq dq c t -> shown sh sq dq c t' -> t = t'.
Proof.
  intros H H'. destruct H as [c k K|D|D|c N A B S|c t N A B S M]; inversion H' as [c' k' K'|D'|D'|c' N' A' B' S'|c' t0 N' A' B' S' M']; subst;
    try reflexivity; try congruence; try (cbn in K; exfalso; intuition congruence); try (cbn in K'; exfalso; intuition congruence);
    try (exfalso; cbn in N'; cbn in K; intuition congruence); try (exfalso; cbn in N; cbn in K'; intuition congruence).
  - cbn in K, K'. intuition congruence.
  - exfalso. specialize (A' eq_refl). congruence.
  - exfalso. specialize (A' eq_refl). congruence.
  - exfalso. specialize (B' eq_refl). congruence.
  - exfalso. specialize (B' eq_refl). congruence.
  - exfalso. specialize (A eq_refl). congruence.
  - exfalso. specialize (B eq_refl). congruence.
  - exfalso. specialize (A eq_refl). congruence.
  - exfalso. specialize (B eq_refl). congruence.
  - rewrite (numeral_det _ _ _ M _ M'). reflexivity.
Qed.
Lemma all_shown_flat sh sq dq s : all_shown sh sq dq s (flat_map (escape_debug sh sq dq) s).
Proof. induction s as [|c s IH]; cbn [flat_map]; [constructor|]. constructor; [apply shown_escape|exact IH]. Qed.
Lemma all_shown_det sh sq dq s t : all_shown sh sq dq s t -> forall t', all_shown sh sq dq s t' -> t = t'.
Proof.
  induction 1 as [|c s t u H _ IH]; intros t' H'; inversion H' as [|c' s' t0 u0 H0 H1]; subst; [reflexivity|].
  rewrite (shown_det _ _ _ _ _ _ H H0), (IH _ H1). reflexivity.
Qed.

(** ** Values *)
Scheme prints_ind4 := Induction for prints Sort Prop
  with prints_all_ind4 := Induction for prints_all Sort Prop
  with prints_pairs_ind4 := Induction for prints_pairs Sort Prop
  with prints_fields_ind4 := Induction for prints_fields Sort Prop.
Lemma prints_det sh d t : prints sh d t -> forall t', prints sh d t' -> t = t'.
Proof.
  revert d t.
  apply (prints_ind4 sh (fun d t _ => forall t', prints sh d t' -> t = t') (fun l t _ => forall t', prints_all sh l t' -> t = t')
    (fun l t _ => forall t', prints_pairs sh l t' -> t = t') (fun l t _ => forall t', prints_fields sh l t' -> t = t')); intros.
  - inversion H; subst; reflexivity.
  - inversion H; subst. f_equal. f_equal. eapply all_shown_det; eassumption.
  - inversion H; subst. f_equal. f_equal. eapply shown_det; eassumption.
  - inversion H; subst. eapply numeral_det; eassumption.
  - inversion H0; subst. do 3 f_equal. apply H. assumption.
  - inversion H0; subst. do 3 f_equal. apply H. assumption.
  - inversion H0; subst. do 2 f_equal. apply H. assumption.
  - inversion H0; subst. do 2 f_equal. apply H. assumption.
  - inversion H0; subst. do 2 f_equal. apply H. assumption.
  - inversion H; subst; reflexivity.
  - inversion H0; subst. apply H. assumption.
  - inversion H1; subst. f_equal; [apply H; assumption|]. f_equal. apply H0. assumption.
  - inversion H; subst; reflexivity.
  - inversion H1; subst. f_equal; [apply H; assumption|]. f_equal. apply H0. assumption.
  - inversion H2; subst. f_equal; [apply H; assumption|]. f_equal. f_equal; [apply H0; assumption|]. f_equal. apply H1. assumption.
  - inversion H0; subst. do 2 f_equal. apply H. assumption.
  - inversion H1; subst. do 2 f_equal. f_equal; [apply H; assumption|]. f_equal. apply H0. assumption.
Qed.
Lemma prints_commas {A} sh (f : A -> str) (g : A -> dval) l : (forall x, prints sh (g x) (f x)) -> prints_all sh (map g l) (commas f l).
Proof.
  intros H. induction l as [|x l IH]; [constructor|]. destruct l as [|y l]; [cbn; constructor; apply H|].
  change (commas f (x :: y :: l)) with (f x ++ lit ", " ++ commas f (y :: l)). cbn [map] in *. constructor; [apply H|exact IH].
Qed.
Lemma prints_entries {A B} sh (f : A -> str) (g : A -> dval) (f' : B -> str) (g' : B -> dval) l : (forall x, prints sh (g x) (f x)) -> (forall x, prints sh (g' x) (f' x)) ->
  prints_pairs sh (map (fun p => (g (fst p), g' (snd p))) l) (commas (show_entry f f') l).
Proof.
  intros H H'. induction l as [|x l IH]; [constructor|]. destruct l as [|y l]; [cbn; unfold show_entry; constructor; [apply H|apply H']|].
  change (commas (show_entry f f') (x :: y :: l)) with (show_entry f f' x ++ lit ", " ++ commas (show_entry f f') (y :: l)). unfold show_entry at 1. rewrite <- !app_assoc.
  cbn [map] in *. constructor; [apply H|apply H'|exact IH].
Qed.
Lemma prints_text sh sq s : prints sh (DText sq s) (show_text sh sq s).
Proof. unfold show_text. constructor. apply all_shown_flat. Qed.
Lemma prints_char sh c : prints sh (DChar c) (show_char sh c).
Proof. unfold show_char. constructor. apply shown_escape. Qed.
Lemma prints_num sh n : prints sh (DNum n) (show_nat n).
Proof. unfold show_nat. constructor. pose proof (numeral_digits 10 (N.of_nat n) ltac:(lia)) as H. rewrite Nat2N.id in H. exact H. Qed.
Lemma prints_as sh d t t' : prints sh d t -> t = t' -> prints sh d t'.
Proof. intros H <-. exact H. Qed.
Ltac same_text := unfold show_set, show_list; repeat rewrite <- app_assoc; reflexivity.
Lemma prints_converter sh l : prints sh (converter_value l) (show_converter sh l).
Proof.
  eapply prints_as; [apply p_struct, pf_one, p_map, (prints_entries sh (show_char sh) DChar (show_char sh) DChar); apply prints_char|]. unfold show_converter. same_text.
Qed.
Lemma prints_eliminator sh l : prints sh (eliminator_value l) (show_eliminator sh l).
Proof. eapply prints_as; [apply p_struct, pf_one, p_set, (prints_commas sh (show_char sh) DChar); apply prints_char|]. unfold show_eliminator. same_text. Qed.
Lemma prints_reducer sh c : prints sh (reducer_value c) (show_reducer sh c).
Proof. eapply prints_as; [apply p_struct, pf_one, prints_char|]. unfold show_reducer. same_text. Qed.
Lemma prints_ligature sh l : prints sh (ligature_value l) (show_ligature sh l).
Proof.
  eapply prints_as; [apply p_struct, pf_one, p_map, (prints_entries sh (show_text sh false) (DText false) (show_text sh false) (DText false)); apply prints_text|]. unfold show_ligature. same_text.
Qed.
Lemma prints_position sh p : prints sh (position_value p) (show_position sh p).
Proof.
  eapply prints_as; [apply p_struct; repeat (apply pf_more; [first [apply prints_text|apply prints_num]|]); apply pf_one, prints_num|]. unfold show_position. same_text.
Qed.
Definition value_of_kind (m : modifier) : dval :=
  match m with
  | MConv l => DTuple (lit "CharacterConverter") (converter_value l)
  | MElim l => DTuple (lit "CharacterEliminator") (eliminator_value l)
  | MRed c => DTuple (lit "ConsecutiveCharacterReducer") (reducer_value c)
  | MDot => DTuple (lit "DottedSpaceEliminator") (DWord (lit "DottedSpaceEliminator"))
  | MLig l => DTuple (lit "LigatureTranslator") (ligature_value l)
  | MTrim => DTuple (lit "Trim") (DWord (lit "Trim"))
  | MNeo n => DTuple (lit "Neologdn") (DStruct (lit "Neologdn")
      [(lit "character_converter", converter_value (neo_conv n)); (lit "consecutive", reducer_value (neo_red n));
       (lit "space_eliminater", DWord (lit "DottedSpaceEliminator")); (lit "character_eliminator", eliminator_value (neo_elim n));
       (lit "ligature_translator", ligature_value (neo_lig n))])
  end.
Lemma prints_kind sh m : prints sh (value_of_kind m) (show_modifier sh m).
Proof.
  destruct m as [x|x|c| |x| |n]; cbn [value_of_kind show_modifier].
  - eapply prints_as; [apply p_tuple, prints_converter|same_text].
  - eapply prints_as; [apply p_tuple, prints_eliminator|same_text].
  - eapply prints_as; [apply p_tuple, prints_reducer|same_text].
  - eapply prints_as; [apply p_tuple, p_word|same_text].
  - eapply prints_as; [apply p_tuple, prints_ligature|same_text].
  - eapply prints_as; [apply p_tuple, p_word|same_text].
  - eapply prints_as; [apply p_tuple, p_struct; apply pf_more; [apply prints_converter|]; apply pf_more; [apply prints_reducer|]; apply pf_more; [apply p_word|];
      apply pf_more; [apply prints_eliminator|]; apply pf_one, prints_ligature|]. unfold show_neologdn. same_text.
Qed.
Lemma prints_record sh m text ps : prints sh
  (DStruct (lit "ModifiedRecord") [(lit "kind", value_of_kind m); (lit "text", DText false text); (lit "positions", DList (map position_value ps))])
  (lit "ModifiedRecord { kind: " ++ show_modifier sh m ++ lit ", text: " ++ show_text sh false text ++ lit ", positions: " ++ show_list (show_position sh) ps ++ lit " }").
Proof.
  eapply prints_as; [apply p_struct; apply pf_more; [apply prints_kind|]; apply pf_more; [apply prints_text|];
    apply pf_one, p_list, (prints_commas sh (show_position sh) position_value); apply prints_position|]. same_text.
Qed.
(** The arrangements by hash orders are all arrangements. *)
Lemma kind_arranged o m : kind_value m (value_of_kind (arranged o m)).
Proof. destruct m as [x|x|c| |x| |n]; cbn [arranged value_of_kind neo_conv neo_red neo_elim neo_lig]; constructor; apply hash_iter_perm. Qed.
Lemma kind_arranges m k : kind_value m k -> exists o, k = value_of_kind (arranged o m).
Proof.
  intros H. destruct H as [x l P|x l P|c| |x l P| |n a b c P1 P2 P3]; try (exists (fun _ => []); reflexivity).
  - destruct (hash_iter_surj x l P) as [o E]. exists o. cbn [arranged value_of_kind]. rewrite E. reflexivity.
  - destruct (hash_iter_surj x l P) as [o E]. exists o. cbn [arranged value_of_kind]. rewrite E. reflexivity.
  - destruct (hash_iter_surj x l P) as [o E]. exists o. cbn [arranged value_of_kind]. rewrite E. reflexivity.
  - destruct (hash_iter_surj _ _ P1) as [o1 E1], (hash_iter_surj _ _ P2) as [o2 E2], (hash_iter_surj _ _ P3) as [o3 E3].
    exists (fun p => match p with 0 :: r => o1 r | 1 :: r => o2 r | 2 :: r => o3 r | _ => [] end).
    cbn [arranged value_of_kind neo_conv neo_red neo_elim neo_lig]. rewrite <- E1, <- E2, <- E3. reflexivity.
Qed.
Lemma line_exact sh sq e t : line sh sq e t <-> exists o, t = event_line sh sq o e.
Proof.
  split.
  - intros H. destruct H as [p ex t H|ps t H|m text ps k t K H]; cbn [event_line].
    + exists (fun _ => []). rewrite (prints_det _ _ _ H _ (prints_text sh sq p)). destruct ex; reflexivity.
    + exists (fun _ => []). rewrite (prints_det _ _ _ H _ (p_list _ _ _ (prints_commas sh (show_text sh sq) (DText sq) ps (prints_text sh sq)))). reflexivity.
    + destruct (kind_arranges m k K) as [o ->]. exists o. exact (prints_det _ _ _ H _ (prints_record sh _ text ps)).
  - intros (o & ->). destruct e as [p ex|ps|[m text ps]]; cbn [event_line].
    + replace (show_bool ex) with (if ex then lit "true" else lit "false") by (destruct ex; reflexivity). apply li_env, prints_text.
    + apply li_files, p_list, (prints_commas sh (show_text sh sq) (DText sq)), prints_text.
    + eapply li_record; [apply (kind_arranged o)|]. apply prints_record.
Qed.
