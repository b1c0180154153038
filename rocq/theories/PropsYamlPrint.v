(** C87: how a correspondence is printed as YAML. *)
From Coq Require Import String.
From Verif Require Import Base StrOps Corr Table Charset File YamlText ParseProps
  Spec BaseFacts CorrFacts CorrProps PropsConverter YamlTextFacts YamlSpec YamlScalars PropsYamlText.
Local Open Scope string_scope.
Local Open Scope list_scope.

(** Texts printed without quotation marks. *)
Definition control (c : char) : Prop := (c < 0x20 /\ ~ In c [0x07; 0x08; 0x0B; 0x0C; 0x1B])%N.
Definition bare (s : str) : Prop := exists c r, s = c :: r /\ ~ In c (lit " &*?|-<>=!%@.") /\ last s c <> 0x20%N /\
  Forall (fun x => ~ In x (lit ":{}[],#`'""\") /\ ~ control x) s /\ ~ word s /\ ~ (exists t, s = lit "0x" ++ t) /\ ~ float s.
(** Characters between quotation marks. *)
Definition lower_hex (d : char) (n : nat) : Prop := nth_error (lit "0123456789abcdef") n = Some d.
Inductive escaped : char -> str -> Prop :=
| es_letter e c : In (e, c) escapes -> escaped c (lit "\" ++ [e])
| es_code c d1 d2 n1 n2 : ~ In c (map snd escapes) -> (c < 0x20 \/ c = 0x7F)%N -> c = N.of_nat (n1 * 16 + n2) -> lower_hex d1 n1 -> lower_hex d2 n2 -> escaped c (lit "\u00" ++ [d1; d2])
| es_self c : ~ In c (map snd escapes) -> (0x20 <= c)%N -> c <> 0x7F%N -> escaped c [c].
Definition printed (s t : str) : Prop := (bare s /\ t = s) \/ (~ bare s /\ exists es, Forall2 escaped s es /\ t = lit """" ++ concat es ++ lit """").
(** The lines for a replacement and what it replaces. *)
Definition entry_lines (g : str * list str) (ls : list str) : Prop := exists K Vs, printed (fst g) K /\ Forall2 printed (snd g) Vs /\
  ls = (lit "  " ++ K ++ lit ":") :: map (fun V => lit "    - " ++ V) Vs.

(** ** Quotation marks *)
Lemma quoted_char_iff c : quoted_char c = true <-> In c (lit ":{}[],#`'""\") \/ control c.
Proof.
  unfold quoted_char, control. rewrite !orb_true_iff, !andb_true_iff, in_text_iff, !N.eqb_eq, !N.leb_le.
  assert (A : In c (lit ":{}[],#`'""\") <-> In c (lit ":{}[],#`'\") \/ c = QUOT).
  { vm_compute. split; intros H; repeat (destruct H as [H|H]; [auto 20|]); try (subst; auto 20); destruct H. }
  rewrite A. clear A. assert (B : (c <= 0x06 \/ c = 0x09 \/ c = 0x0A \/ c = 0x0D \/ (0x0E <= c /\ c <= 0x1A) \/ (0x1C <= c /\ c <= 0x1F))%N <-> (c < 0x20 /\ ~ In c [0x07; 0x08; 0x0B; 0x0C; 0x1B])%N) by (cbn [In]; unfold char in *; lia).
  rewrite <- B. tauto.
Qed.
Lemma bare_iff s : need_quotes s = false <-> bare s.
Proof.
  destruct s as [|c r]; [split; [discriminate|intros (c & r & Q & _); discriminate Q]|]. unfold need_quotes. rewrite !orb_false_iff.
  assert (M : mem str_eqb (c :: r) RESERVED = false <-> ~ word (c :: r)).
  { rewrite <- not_true_iff_false. apply not_iff_compat. rewrite mem_In by apply str_eqb_eq. unfold word, RESERVED. rewrite !in_map_iff.
    split; intros (x & E & J); exists x; (split; [exact E|]); cbn [In] in J |- *; tauto. }
  rewrite M. assert (F : float_text (c :: r) = false <-> ~ float (c :: r)) by (rewrite <- not_true_iff_false; apply not_iff_compat, float_iff). rewrite F.
  assert (X : starts_with (lit "0x") (c :: r) = false <-> ~ (exists t, c :: r = lit "0x" ++ t)).
  { rewrite <- not_true_iff_false. apply not_iff_compat. split; [intros H; apply starts_with_app, H|]. intros (t & ->). reflexivity. }
  rewrite X. assert (Q : existsb quoted_char (c :: r) = false <-> Forall (fun x => ~ In x (lit ":{}[],#`'""\") /\ ~ control x) (c :: r)).
  { rewrite Forall_forall. split.
    - intros H x J. assert (Z : quoted_char x = false) by (destruct (quoted_char x) eqn:Z; [|reflexivity]; rewrite <- H; symmetry; apply existsb_exists; eauto). rewrite <- not_true_iff_false, quoted_char_iff in Z. tauto.
    - intros H. apply not_true_iff_false. intros Z. apply existsb_exists in Z as (x & J & Z). apply quoted_char_iff in Z. specialize (H x J). tauto. }
  rewrite Q. assert (I1 : N.eqb c SPACE = false /\ in_text "&*?|-<>=!%@" c = false /\ N.eqb c DOT = false <-> ~ In c (lit " &*?|-<>=!%@.")).
  { rewrite <- (not_true_iff_false (in_text _ c)), in_text_iff, !N.eqb_neq. assert (A : In c (lit " &*?|-<>=!%@.") <-> c = SPACE \/ In c (lit "&*?|-<>=!%@") \/ c = DOT).
    { vm_compute. split; intros H; repeat (destruct H as [H|H]; [auto 20|]); try (subst; auto 20); try destruct H. }
    rewrite A. tauto. }
  change SPACE with 0x20%N in *. split.
  - intros (((((((A1 & A2) & A3) & A4) & A5) & A6) & A7) & A8). exists c, r. split; [reflexivity|]. rewrite N.eqb_neq in A2. tauto.
  - intros (c' & r' & E & B1 & B2 & B3 & B4 & B5 & B6). injection E as <- <-. apply I1 in B1. apply N.eqb_neq in B2. tauto.
Qed.
Lemma escape_iff c : escaped c (escape_char c).
Proof.
  unfold escape_char.
  assert (Esc : forall e d, In (e, d) escapes -> c = d -> escaped c [BACKSLASH; e]) by (intros e d H ->; exact (es_letter e d H)).
  destruct (N.eqb_spec c QUOT) as [E1|E1]; [apply (Esc _ QUOT); [left; reflexivity|exact E1]|].
  destruct (N.eqb_spec c BACKSLASH) as [E2|E2]; [apply (Esc _ BACKSLASH); [right; left; reflexivity|exact E2]|].
  destruct (N.eqb_spec c 0x08) as [E3|E3]; [apply (Esc _ 0x08%N); [do 2 right; left; reflexivity|exact E3]|].
  destruct (N.eqb_spec c 0x09) as [E4|E4]; [apply (Esc _ 0x09%N); [do 3 right; left; reflexivity|exact E4]|].
  destruct (N.eqb_spec c 0x0A) as [E5|E5]; [apply (Esc _ 0x0A%N); [do 4 right; left; reflexivity|exact E5]|].
  destruct (N.eqb_spec c 0x0C) as [E6|E6]; [apply (Esc _ 0x0C%N); [do 5 right; left; reflexivity|exact E6]|].
  destruct (N.eqb_spec c 0x0D) as [E7|E7]; [apply (Esc _ 0x0D%N); [do 6 right; left; reflexivity|exact E7]|].
  assert (NE : ~ In c (map snd escapes)) by (vm_compute; intros H; repeat (destruct H as [H|H]; [symmetry in H; contradiction|]); exact H).
  destruct (N.ltb c 0x20 || N.eqb c 0x7F)%bool eqn:L.
  - rewrite orb_true_iff, N.ltb_lt, N.eqb_eq in L.
    assert (Hx : forall n, (n < 16)%N -> lower_hex (hex_digit n) (N.to_nat n)).
    { intros n Hn. assert (Q : forallb (fun k => match nth_error (lit "0123456789abcdef") k with Some d => N.eqb d (hex_digit (N.of_nat k)) | None => false end) (seq 0 16) = true) by (vm_compute; reflexivity).
      rewrite forallb_forall in Q. specialize (Q (N.to_nat n)). rewrite List.in_seq in Q. unfold lower_hex. rewrite N2Nat.id in Q. destruct (nth_error (lit "0123456789abcdef") (N.to_nat n)) as [d|].
      - f_equal. apply N.eqb_eq. apply Q. lia.
      - exfalso. assert (false = true) by (apply Q; lia). discriminate. }
    assert (D : c = (16 * (c / 16) + c mod 16)%N) by (apply N.div_mod; lia). assert (M : (c mod 16 < 16)%N) by (apply N.mod_lt; lia). assert (V : (c / 16 < 16)%N) by (apply N.div_lt_upper_bound; unfold char in *; lia).
    apply (es_code c _ _ (N.to_nat (c / 16)) (N.to_nat (c mod 16))); auto. clear Hx. unfold char in *. generalize dependent (c / 16)%N. generalize dependent (c mod 16)%N. intros. lia.
  - rewrite orb_false_iff, N.ltb_ge, N.eqb_neq in L. apply es_self; tauto.
Qed.
Lemma printed_is s : printed s (emit_scalar s).
Proof.
  unfold emit_scalar. destruct (need_quotes s) eqn:E.
  - right. split; [intros B; apply bare_iff in B; congruence|]. exists (map escape_char s). split; [clear; induction s; constructor; auto using escape_iff|]. unfold escape_str. rewrite flat_map_concat_map. reflexivity.
  - left. split; [apply bare_iff, E|reflexivity].
Qed.
Lemma group_lines_are g : entry_lines g (group_lines g).
Proof.
  exists (emit_scalar (fst g)), (map emit_scalar (snd g)). split; [apply printed_is|]. split; [induction (snd g); constructor; auto using printed_is|]. unfold group_lines. rewrite map_map. reflexivity.
Qed.
Lemma joined_lines x l : joined [NEWLINE] (x :: l) = x ++ lines_text l.
Proof.
  revert x. induction l as [|y l IH]; intros x; [cbn; rewrite app_nil_r; reflexivity|]. change (joined [NEWLINE] (x :: y :: l)) with (x ++ [NEWLINE] ++ joined [NEWLINE] (y :: l)). rewrite IH. reflexivity.
Qed.
(** The printed text, to the character: replacements in increasing order, below each what it replaces in the order of the items. *)
Theorem C87_printed : forall o c, exists groups ls,
  ordered lex_lt (map fst groups) /\
  (forall k vs, In (k, vs) groups <-> vs = map from (filter (fun it => if str_eq_dec (to it) k then true else false) (c o)) /\ vs <> []) /\
  Forall2 entry_lines groups ls /\
  to_yaml_text o c = match groups with [] => lit "---" ++ [NEWLINE] ++ lit "items: {}" | _ => joined [NEWLINE] (lit "---" :: lit "items:" :: concat ls) end.
Proof.
  intros o c. destruct (C38_lemma (c o)) as (S & G & _). exists (item_map (c o)), (map group_lines (item_map (c o))). split; [exact S|]. split; [exact G|]. split; [generalize (item_map (c o)); intros gs; induction gs; constructor; auto using group_lines_are|].
  unfold to_yaml_text. assert (N : Forall (fun kv => snd kv <> []) (item_map (c o))) by (apply Forall_forall; intros [k vs] I; apply G in I; apply I).
  destruct (item_map (c o)) as [|g gs]; [reflexivity|]. 
  unfold emit_corr. rewrite (groups_lines (g :: gs) ltac:(discriminate) N), joined_lines. rewrite <- flat_map_concat_map. reflexivity.
Qed.
Print Assumptions C87_printed.
(** A text is printed between quotation marks or as it is; never both ways. *)
Theorem C87_printed_once : forall s t t', printed s t -> printed s t' -> t = t'.
Proof.
  assert (E : forall c x y, escaped c x -> escaped c y -> x = y).
  { intros c x y H H'. destruct H as [e c I|c d1 d2 n1 n2 N L -> H1 H2|c N L L']; inversion H' as [e' c' I'|c' d1' d2' n1' n2' N' L2 E1 H1' H2'|c' N' L2 L2']; subst.
    - vm_compute in I, I'. f_equal. repeat (destruct I as [I|I]; [injection I as <- <-; repeat (destruct I' as [I'|I']; [first [discriminate I'|injection I' as <-; reflexivity]|]); destruct I'|]). destruct I.
    - exfalso. match goal with A : ~ In _ _, B : In _ _ |- _ => apply A; exact (List.in_map snd _ _ B) end.
    - exfalso. match goal with A : ~ In _ _, B : In _ _ |- _ => apply A; exact (List.in_map snd _ _ B) end.
    - exfalso. match goal with A : ~ In _ _, B : In _ _ |- _ => apply A; exact (List.in_map snd _ _ B) end.
    - assert (B : forall d n, lower_hex d n -> n < 16) by (intros d n Hd; apply (nth_error_Some (lit "0123456789abcdef")); unfold lower_hex in Hd; rewrite Hd; discriminate).
      pose proof (B _ _ H1). pose proof (B _ _ H2). pose proof (B _ _ H1'). pose proof (B _ _ H2'). assert (n1 = n1' /\ n2 = n2') as [<- <-] by lia. unfold lower_hex in *. congruence.
    - lia.
    - exfalso. match goal with A : ~ In _ _, B : In _ _ |- _ => apply A; exact (List.in_map snd _ _ B) end.
    - lia.
    - reflexivity. }
  intros s t t' [[B ->]|(B & es & F & ->)] [[B' ->]|(B' & es' & F' & ->)]; try contradiction; [reflexivity|]. do 2 f_equal. f_equal. clear B B'. revert es' F'. induction F as [|c x s es H F IH]; intros es' F'; inversion F'; subst; [reflexivity|]. f_equal; [eapply E; eassumption|apply IH; assumption].
Qed.
Print Assumptions C87_printed_once.
Example C87_printed_case :
  float (lit "-1.e+05") /\ float (lit ".5") /\ float (lit "+INF") /\ ~ float (lit "1e") /\ ~ bare (lit "1.5") /\ bare (lit "1.5.2") /\ bare [0x07%N] /\ ~ bare (lit "no") /\ bare (lit "nO") /\
  printed (lit "a""" ++ [0x01; 0x3042]%N) (lit """a\""\u0001" ++ [0x3042%N] ++ lit """") /\ printed [0x7F%N] [0x7F%N].
Proof.
  rewrite <- !float_iff, <- !bare_iff. repeat (split; [vm_compute; first [reflexivity|discriminate]|]).
  split; [exact (printed_is (lit "a""" ++ [0x01; 0x3042]%N))|exact (printed_is [0x7F%N])].
Qed.
