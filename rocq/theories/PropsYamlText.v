(** C87, C88: YAML text. *)
From Coq Require Import String.
From Verif Require Import Base StrOps Corr Table Charset Converter Neologdn ModifierKind ChanomaModel PathModel Yaml File Configuration Cli YamlText YamlData ParseProps
  Spec FileSpec ConfigSpec PathSpec BaseFacts CorrFacts CharsetFacts CorrProps FileProps ConfigProps BinProps PathProps PropsConverter PropsPipeline PropsFile PropsTableFile PropsConfig
  ConverterFacts CommProps YamlTextFacts YamlSpec YamlScalars YamlSound YamlComplete ExampleData PropsExamples.
Local Open Scope string_scope.
Local Open Scope list_scope.

(** ** C87 *)
(** Ordinary characters: printable, or tabulator, line feed, carriage return. *)
Definition text_char (c : char) : Prop :=
  (0x20 <= c <= 0x7E \/ c = 0x09 \/ c = 0x0A \/ c = 0x0D \/ (0xA0 <= c /\ c <> 0x2028 /\ c <> 0x2029 /\ c <> 0xFEFF))%N.
Definition ordinary (s : str) : Prop := Forall text_char s /\ ~ based_number s.

Lemma text_char_print c : text_char c -> can_print c = true.
Proof.
  intros H. unfold can_print. apply orb_true_iff. unfold printable. rewrite orb_true_iff, !andb_true_iff, !negb_true_iff, !N.eqb_neq, !N.leb_le, N.ltb_lt.
  destruct H as [H|[->|[->|[->|H]]]]; [left; left; lia|right; reflexivity|right; reflexivity|right; reflexivity|left; right; lia].
Qed.
Lemma ordinary_showable s : ordinary s -> showable s.
Proof.
  intros [H N]. split.
  - apply forallb_forall. intros c I. apply text_char_print. rewrite Forall_forall in H. exact (H c I).
  - destruct (radix_text s) eqn:E; [destruct (N (radix_based s E))|reflexivity].
Qed.
Lemma escape_length c : List.length (escape_char c) <= 6.
Proof. unfold escape_char. repeat (match goal with |- context [if ?b then _ else _] => destruct b end; [cbn; lia|]). cbn. lia. Qed.
Lemma key_fits_short s : List.length s <= 150 -> key_fits s.
Proof.
  intros H. unfold key_fits, emit_scalar. destruct (need_quotes s); [|lia]. unfold escape_str. cbn [List.length]. rewrite app_length. cbn [List.length].
  assert (L : List.length (flat_map escape_char s) <= 6 * List.length s); [|lia]. clear H. induction s as [|c s IH]; [cbn; lia|].
  cbn [flat_map List.length]. rewrite app_length. pose proof (escape_length c). lia.
Qed.
Lemma lex_lt_nodup l : ordered lex_lt l -> NoDup l.
Proof.
  induction l as [|x l IH]; intros H; constructor.
  - destruct H as [H _]. rewrite Forall_forall in H. intros I. exact (lex_lt_irrefl _ (H x I)).
  - apply IH, H.
Qed.
Definition exportable (items : list item) : Prop :=
  Forall (fun it => ordinary (from it) /\ ordinary (to it) /\ List.length (to it) <= 150) items.
Lemma exportable_groups items : exportable items -> groups_ok (item_map items).
Proof.
  intros H. destruct (C38_lemma items) as (S & G & P). split; [apply lex_lt_nodup, S|]. rewrite Forall_forall. intros [k vs] I. cbn [fst snd].
  assert (A : forall v, In v vs -> In (Item v k) items).
  { intros v Iv. apply (Permutation_in _ P). apply in_flat_map. exists (k, vs). split; [exact I|]. cbn [fst snd]. apply in_map_iff. eauto. }
  unfold exportable in H. rewrite Forall_forall in H. apply G in I as [_ N]. destruct vs as [|v vs]; [destruct N; reflexivity|].
  destruct (H _ (A v (or_introl eq_refl))) as (_ & K & L). cbn [to] in K, L.
  split; [apply ordinary_showable, K|]. split; [apply key_fits_short, L|]. split; [discriminate|].
  rewrite Forall_forall. intros x Ix. apply ordinary_showable. apply (H _ (A x Ix)).
Qed.
(** What a correspondence is printed as is read back as that correspondence. *)
Theorem C87_roundtrip : forall o c w p n, exportable (c o) -> yaml_file w p (to_yaml_text o c ++ repeat NEWLINE n) ->
  exists t, table_from_yaml_path w p = Ok t /\ Permutation (table_items t) (c o).
Proof.
  intros o c w p n E F. apply (C41_yaml_roundtrip o c w p). apply F, read_sound. unfold to_yaml_text. rewrite (document_reads _ n (exportable_groups _ E)). reflexivity.
Qed.
Print Assumptions C87_roundtrip.

(** How the output tool shows a replacement character: between quotation marks if it is a digit or one of these signs. *)
Definition shown_key (c : char) : str :=
  if (N.eqb c 0x22 || N.eqb c 0x5C)%bool then [0x22; 0x5C; c; 0x22]%N
  else if ((N.leb 0x30 c && N.leb c 0x39) || existsb (N.eqb c) (lit " !#%&'*,-.:<=>?@[]`{|}~"))%bool then [0x22; c; 0x22]%N
  else [c].
Definition tool_lines (groups : list (char * list char)) : list str :=
  lit "---" :: lit "items:" ::
  flat_map (fun g => (lit "  " ++ shown_key (fst g) ++ lit ":") :: map (fun c => lit "    - " ++ [c]) (snd g)) groups.
Definition char_groups : list (char * list char) :=
  Eval vm_compute in map (fun kv => (hd 0%N (fst kv), map (hd 0%N) (snd kv))) (item_map ALL_items).
Lemma char_groups_eq : item_map ALL_items = map (fun g => ([fst g], map (fun c => [c]) (snd g))) char_groups.
Proof. vm_compute. reflexivity. Qed.
Lemma tool_text o n : output_yaml o n = emit_corr (item_map ALL_items) ++ repeat NEWLINE n.
Proof. unfold output_yaml, to_yaml_text. rewrite builder_preset_new. reflexivity. Qed.
Fixpoint increasing (l : list N) : bool := match l with x :: r => (match r with y :: _ => N.ltb x y | [] => true end && increasing r)%bool | [] => true end.
Lemma increasing_ordered l : increasing l = true -> ordered N.lt l.
Proof.
  induction l as [|x l IH]; intros H; [exact I|]. cbn [increasing] in H. apply andb_true_iff in H as [H1 H2]. specialize (IH H2). split; [|exact IH].
  destruct l as [|y l]; constructor; [apply N.ltb_lt, H1|]. destruct IH as [R _]. apply N.ltb_lt in H1. eapply Forall_impl; [|exact R].
  intros z Hz. cbn beta in Hz. lia.
Qed.
(** The printed lines: for every replacement character, in increasing order, the characters it replaces; together exactly the
    preset. *)
Theorem C87_tool_prints : forall o n, exists groups, split NEWLINE (output_yaml o n) = tool_lines groups ++ repeat [] n /\
  ordered N.lt (map fst groups) /\ (forall g, In g groups -> snd g <> []) /\
  forall c t, (exists cs, In (t, cs) groups /\ In c cs) <-> preset_rel c t.
Proof.
  intros o n. exists char_groups. rewrite tool_text. split; [|split; [|split]].
  - rewrite emit_lines.
    + assert (E : tool_lines char_groups = lit "---" :: lit "items:" :: flat_map group_lines (item_map ALL_items)) by (vm_compute; reflexivity).
      rewrite E. reflexivity.
    + rewrite char_groups_eq. discriminate.
    + rewrite char_groups_eq. apply Forall_forall. intros kv H. apply in_map_iff in H as (g & <- & H). cbn [snd].
      assert (A : forallb (fun g => match snd g with [] => false | _ => true end) char_groups = true) by (vm_compute; reflexivity).
      rewrite forallb_forall in A. specialize (A g H). destruct (snd g); discriminate.
  - apply increasing_ordered. vm_compute. reflexivity.
  - intros g H N. assert (A : forallb (fun g => match snd g with [] => false | _ => true end) char_groups = true) by (vm_compute; reflexivity).
    rewrite forallb_forall in A. specialize (A g H). rewrite N in A. discriminate A.
  - intros c t. destruct (C38_lemma ALL_items) as (_ & _ & P). rewrite char_groups_eq in P.
    transitivity (In (Item [c] [t]) ALL_items).
    + split.
      * intros (cs & I & J). apply (Permutation_in _ P). apply in_flat_map. exists ([t], map (fun c => [c]) cs). split; [apply in_map_iff; exists (t, cs); auto|].
        cbn [fst snd]. rewrite map_map. apply in_map_iff. exists c. auto.
      * intros I. apply (Permutation_in _ (Permutation_sym P)) in I. apply in_flat_map in I as (kv & K & J). apply in_map_iff in K as ([t' cs] & <- & K).
        cbn [fst snd] in J. rewrite map_map in J. apply in_map_iff in J as (c' & E & J). injection E as -> ->. exists cs. auto.
    + rewrite ALL_items_rel. split; [intros (c' & t' & R & E); injection E as -> ->; exact R|intros R; exists c, t; auto].
Qed.
Print Assumptions C87_tool_prints.
(** Saved as a configuration file it acts like the preset. *)
Theorem C87_tool_reload : forall o n o' w p, is_yaml p -> yaml_file w p (output_yaml o n) -> exists c, from_config_file o' w p = Ok c /\
  forall s out, result c s out <-> pointwise preset_rel s out.
Proof.
  intros o n o' w p Y F. apply (C59_yaml_reload o _ (eq_refl _) o' w p Y). apply F, read_sound. rewrite tool_text.
  assert (E : exportable ALL_items).
  { unfold exportable. apply Forall_forall. intros it I. apply ALL_items_rel in I as (c & t & R & ->).
    assert (A : forall x, (0x20 <= x < 0x10000 -> x < 0x7F \/ (0xA0 <= x /\ x <> 0x2028 /\ x <> 0x2029 /\ x <> 0xFEFF) -> ordinary [x])%N).
    { intros x H1 H2. split; [constructor; [|constructor]; unfold text_char; lia|].
      intros (sign & base & r & D & B & E). apply (f_equal (@List.length _)) in E. rewrite !app_length in E.
      assert (L : List.length base = 2) by (destruct B as [-> |[-> | ->]]; reflexivity). rewrite L in E. cbn [List.length] in E. lia. }
    cbn [from to]. assert (Q : (existsb (fun g => existsb (N.eqb c) (snd g) && N.eqb t (fst g))%bool char_groups = true)).
    { apply existsb_exists. destruct (C38_lemma ALL_items) as (_ & _ & P). rewrite char_groups_eq in P.
      assert (I : In (Item [c] [t]) ALL_items) by (apply ALL_items_rel; exists c, t; auto).
      apply (Permutation_in _ (Permutation_sym P)) in I. apply in_flat_map in I as (kv & K & J). apply in_map_iff in K as ([t' cs] & <- & K).
      cbn [fst snd] in J. rewrite map_map in J. apply in_map_iff in J as (c' & E & J). injection E as -> ->. exists (t, cs). split; [exact K|].
      apply andb_true_iff. split; [|apply N.eqb_refl]. apply existsb_exists. exists c. split; [exact J|apply N.eqb_refl]. }
    assert (B : forallb (fun g => forallb (fun x => N.leb 0x20 x && N.ltb x 0x10000 && (N.ltb x 0x7F || (N.leb 0xA0 x && negb (N.eqb x 0x2028) && negb (N.eqb x 0x2029) && negb (N.eqb x 0xFEFF))))%bool
      (fst g :: snd g)) char_groups = true) by (vm_compute; reflexivity).
    apply existsb_exists in Q as (g & G & Q). apply andb_true_iff in Q as [Q1 Q2]. apply existsb_exists in Q1 as (x & X & Q1). apply N.eqb_eq in Q1, Q2. subst x t.
    rewrite forallb_forall in B. specialize (B g G). rewrite forallb_forall in B.
    assert (C : forall x, In x (fst g :: snd g) -> ordinary [x]).
    { intros x Ix. specialize (B x Ix). rewrite !andb_true_iff, orb_true_iff, !andb_true_iff, !negb_true_iff, !N.eqb_neq, !N.leb_le, !N.ltb_lt in B. apply A; lia. }
    split; [apply C; right; exact X|]. split; [apply C; left; reflexivity|cbn; lia]. }
  rewrite (document_reads _ n (exportable_groups _ E)). unfold to_serialized_corr. rewrite builder_preset_new. reflexivity.
Qed.
Print Assumptions C87_tool_reload.
Example C87_case :
  to_yaml_text no_order (synth [Item (lit "b") (lit "yes"); Item (lit "a c") (lit "1"); Item [0x3042%N; NEWLINE] (lit "1"); Item (lit "x:") (lit "k")]) ++ [NEWLINE] =
    lit "---" ++ [NEWLINE] ++ lit "items:" ++ [NEWLINE] ++ lit "  ""1"":" ++ [NEWLINE] ++ lit "    - a c" ++ [NEWLINE] ++ lit "    - """ ++ [0x3042%N] ++ lit "\n""" ++ [NEWLINE] ++
    lit "  k:" ++ [NEWLINE] ++ lit "    - ""x:""" ++ [NEWLINE] ++ lit "  ""yes"":" ++ [NEWLINE] ++ lit "    - b" ++ [NEWLINE] /\
  exportable [Item (lit "b") (lit "yes"); Item (lit "a c") (lit "1"); Item [0x3042%N; NEWLINE] (lit "1"); Item (lit "x:") (lit "k")] /\
  to_yaml_text no_order (synth []) = lit "---" ++ [NEWLINE] ++ lit "items: {}" /\
  firstn 8 (split NEWLINE (output_yaml no_order 2)) =
    [lit "---"; lit "items:"; lit "  "" "":"; lit "    - " ++ [0x3000%N]; lit "  ""!"":"; lit "    - " ++ [0xFF01%N]; lit "  ""\"""":"; lit "    - " ++ [0x201D%N]].
Proof.
  split; [vm_compute; reflexivity|]. split; [|split; vm_compute; reflexivity].
  assert (A : forall s, forallb (fun c => (N.leb 0x20 c && N.leb c 0x7E) || N.eqb c 0x0A || N.eqb c 0x3042)%bool s = true -> hd 0%N s <> 0x30%N -> hd 0%N s <> 0x2B%N -> hd 0%N s <> 0x2D%N -> ordinary s).
  { intros s H H0 H1 H2. split.
    - apply Forall_forall. intros c I. rewrite forallb_forall in H. specialize (H c I). rewrite !orb_true_iff, andb_true_iff, !N.leb_le, !N.eqb_eq in H. unfold text_char. lia.
    - intros (sign & base & r & [-> |[-> | ->]] & B & ->); [|apply H1; reflexivity|apply H2; reflexivity].
      destruct B as [-> |[-> | ->]]; apply H0; reflexivity. }
  repeat (constructor; [cbn [from to]; split; [apply A; (reflexivity || discriminate)|split; [apply A; (reflexivity || discriminate)|vm_compute; repeat constructor]]|]). constructor.
Qed.

(** ** C88 *)
(** The sample of README.md for [modifiers] loads to the seven modifiers it names, in this order, and a conversion that does
    nothing. *)
Theorem C88_readme_modifiers : forall o w p, is_yaml p -> yaml_file w p readme_modifiers -> forall n, neologdn_new o = Ok n ->
  from_config_file o w p = Ok
    [MConv [(0x61, 0x41); (0x62, 0x42)]%N; MElim [0x7E; 0x223C; 0x223E; 0x301C; 0x3030; 0xFF5E]%N; MRed 0x30FC%N; MDot;
     MLig [([0x30CF; 0x309C], [0x30D1])]%N; MTrim; MNeo n; MConv []].
Proof.
  intros o w p Y F n Hn. rewrite neologdn_new_eq in Hn.
  assert (W : w_yaml w p = Some (Some match read_document readme_modifiers with Some v => v | None => YNull end)).
  { apply F, read_sound. vm_compute. reflexivity. }
  apply ext_yaml_iff in Y. unfold from_config_file, configuration_from_path, load_file_with_ext. rewrite Y.
  cbn [bind]. unfold load_items_to_character_converter, load_modifiers, table_from_yaml_path, modifiers_from_yaml_path, read_yaml. rewrite W. clear F W.
  assert (E : forall i, neologdn_new (sub o i) = Ok n) by (intros i; rewrite neologdn_new_eq; exact Hn). clear Hn.
  set (d := match read_document readme_modifiers with Some v => v | None => YNull end). vm_compute in d. subst d. cbn [bind].
  cbv -[neologdn_new sub]. rewrite E. reflexivity.
Qed.
Print Assumptions C88_readme_modifiers.

(** Handwritten files. *)
Definition items_text (es : list (str * str)) : str :=
  lit "items:" ++ [NEWLINE] ++ flat_map (fun e => lit "  " ++ fst e ++ lit ": " ++ snd e ++ [NEWLINE]) es.

Lemma lines_shift ls : [NEWLINE] ++ flat_map (fun l => l ++ [NEWLINE]) ls = lines_text ls ++ [NEWLINE].
Proof.
  induction ls as [|l ls IH]; [reflexivity|]. cbn [flat_map]. unfold lines_text in *. cbn [flat_map]. rewrite <- !app_assoc. rewrite IH. reflexivity.
Qed.
Lemma items_text_entries es : items_text (map (fun e : entry => (fst (fst e), fst (snd e))) es) = entries_text es.
Proof.
  unfold items_text, entries_text. f_equal. rewrite <- lines_shift. f_equal. induction es as [|e es IH]; [reflexivity|]. cbn [map flat_map]. rewrite IH. f_equal.
  unfold entry_line, indentation. cbn [fst snd]. rewrite <- !app_assoc. reflexivity.
Qed.
(** What is replaced: one text, or a list in brackets. *)
Definition values (V : str) (os : list (option str)) : Prop :=
  (exists o, os = [o] /\ scalar V o) \/
  exists ts, V = lit "[" ++ joined (lit ", ") ts ++ lit "]" /\ Forall2 (fun t o => scalar t o /\ fits t) ts os.
(** The line [e] lists the replacement [fst g] and the replaced texts [snd g]. *)
Definition listed (e : str * str) (g : option str * list (option str)) : Prop := scalar (fst e) (fst g) /\ List.length (fst e) < 1000 /\ values (snd e) (snd g).
(** The line is usable: nothing but texts (the replacement of an empty list is not looked at). *)
Definition usable (g : option str * list (option str)) : Prop := ~ In None (snd g) /\ (fst g = None -> snd g = []).
Definition text (o : option str) : str := match o with Some s => s | None => [] end.
Definition listed_items (gs : list (option str * list (option str))) : list item := flat_map (fun g => map (fun o => Item (text o) (text (fst g))) (snd g)) gs.

Definition value_kind (v : yval) (os : list (option str)) : Prop := (exists o, os = [o] /\ kind v o) \/ exists xs, v = YSeq xs /\ Forall2 kind xs os.
Lemma scalar_flows t o : scalar t o -> fits t -> exists v, kind v o /\ flow_node t v /\ no_newline t /\ calm t.
Proof.
  intros H Fi. destruct (scalar_first t o H) as (c & r & E & _ & N1 & N2 & _). assert (G : exists v, kind v o /\ flows t v).
  { destruct o as [s|]; [exists (YStr s); split; [reflexivity|exact (written_flows t s H Fi)]|]. destruct H as [H L]. destruct (no_text_reads t H L) as (P & v & R & K). exists v. split; [exact K|].
    apply plain_flows; [unfold read_plain; rewrite P; exact R|]. apply fits_plain; [exact Fi|]. intros c' r' E'. destruct (plain_parts t P) as (d & q & E2 & A1 & A2 & _ & _ & _ & A3 & A4 & _). rewrite E' in E2. injection E2 as <- _. auto. }
  destruct G as (v & K & F). exists v. split; [exact K|]. split; [apply flows_node; [exact F|exists c, r; auto]|]. destruct (scalar_value t o H) as (v' & (A & _ & _ & C & _) & _). auto.
Qed.
Lemma joined_cons sep (t u : str) ts : joined sep (t :: u :: ts) = t ++ sep ++ joined sep (u :: ts).
Proof. reflexivity. Qed.
Lemma elements_joined : forall ts os, Forall2 (fun t o => scalar t o /\ fits t) ts os -> ts <> [] -> exists vs, Forall2 kind vs os /\
  forall f, 2 * List.length (joined (lit ", ") ts) + 1 <= f -> flow_elements f (joined (lit ", ") ts ++ lit "]") = Some (vs, []).
Proof.
  induction 1 as [|t o ts os [H Fi] F IH]; intros N; [destruct N; reflexivity|]. destruct (scalar_flows t o H Fi) as (v & K & R & _). destruct ts as [|u ts].
  - inversion F; subst. exists [v]. split; [constructor; [exact K|constructor]|]. intros f L. destruct f as [|f]; [lia|]. cbn [joined] in *. cbn [flow_elements].
    specialize (R f 0 (lit "]")). cbn [repeat app] in R. match goal with |- match read_flow f ?x with _ => _ end = _ => replace (read_flow f x) with (Some (v, lit "]")) by (symmetry; apply R; [reflexivity|lia]) end. reflexivity.
  - destruct IH as (vs & Ks & Rs); [discriminate|]. exists (v :: vs). split; [constructor; assumption|]. intros f L. destruct f as [|f]; [lia|]. rewrite joined_cons in *. rewrite !app_length in L. change (List.length (lit ", ")) with 2 in L.
    cbn [flow_elements]. specialize (R f 0 (lit ", " ++ joined (lit ", ") (u :: ts) ++ lit "]")). cbn [repeat app] in R. rewrite <- !app_assoc.
    match goal with |- match read_flow f ?x with _ => _ end = _ => replace (read_flow f x) with (Some (v, lit ", " ++ joined (lit ", ") (u :: ts) ++ lit "]")) by (symmetry; apply R; [reflexivity|lia]) end.
    change (lit ", " ++ joined (lit ", ") (u :: ts) ++ lit "]") with (COMMA :: repeat SPACE 1 ++ joined (lit ", ") (u :: ts) ++ lit "]"). change (N.eqb COMMA RBRACKET) with false. change (N.eqb COMMA COMMA) with true. cbn iota.
    rewrite skip_spaces_app.
    + rewrite Rs by lia. reflexivity.
    + inversion F as [|? ? ? ? [Hu _] _]; subst. destruct (scalar_first _ _ Hu) as (c & r & -> & Nc & _). destruct ts; exact Nc.
Qed.
Lemma kind_shallow v o : kind v o -> shallow 0 v = true.
Proof. destruct o as [s|]; cbn [kind]; [intros ->; reflexivity|intros [-> |[-> | ->]]; reflexivity]. Qed.
Lemma values_written V os : values V os -> exists v, value_written V v /\ value_kind v os /\ shallow 1 v = true.
Proof.
  intros [(o & -> & H)|(ts & -> & F)].
  - destruct (scalar_value V o H) as (v & W & K). exists v. split; [exact W|]. split; [left; eauto|]. apply (shallow_mono 0); [lia|exact (kind_shallow v o K)].
  - assert (NL : no_newline (joined (lit ", ") ts) /\ calm (joined (lit ", ") ts) /\ hd_error (joined (lit ", ") ts) <> Some HASH).
    { induction F as [|t o ts os [H Fi] F IH]; [split; [intros []|split; [apply calm_nil|discriminate]]|]. destruct (scalar_flows t o H Fi) as (v & _ & _ & Nl & C). destruct (scalar_first t o H) as (c & r & E & _ & _ & _ & _ & NH).
      assert (HH : forall z, hd_error (t ++ z) <> Some HASH) by (intros z; rewrite E; intros Q; injection Q as Q; exact (NH Q)).
      destruct ts as [|u ts]; [split; [exact Nl|split; [exact C|specialize (HH []); rewrite app_nil_r in HH; exact HH]]|]. destruct IH as (I1 & I2 & I3).
      rewrite joined_cons. split; [|split; [|apply HH]].
      - apply no_newline_app; [exact Nl|]. apply no_newline_app; [|exact I1]. vm_compute. intros X. repeat (destruct X as [X|X]; [discriminate X|]). exact X.
      - apply calm_app; [exact C| |discriminate]. apply calm_app; [apply calm_chars; reflexivity|exact I2|exact I3]. }
    destruct NL as (NL & C & HH).
    assert (R : exists vs, read_inline (LBRACKET :: joined (lit ", ") ts ++ lit "]") = Some (YSeq vs) /\ Forall2 kind vs os).
    { unfold read_inline. change (N.eqb LBRACKET LBRACKET || N.eqb LBRACKET LBRACE)%bool with true. cbn iota. cbn [List.length]. rewrite app_length. change (List.length (lit "]")) with 1. destruct F as [|t o ts os [H Fi] F]; [exists []; split; [reflexivity|constructor]|].
      destruct (elements_joined (t :: ts) (o :: os)) as (vs & K & Q); [constructor; [split; assumption|exact F]|discriminate|]. exists vs. split; [|exact K].
      set (J := joined (lit ", ") (t :: ts)) in *. assert (EJ : exists c r, J = c :: r /\ c <> SPACE /\ c <> RBRACKET).
      { destruct (scalar_first t o H) as (c & r & E & N1 & _ & _ & N2 & _). unfold J. destruct ts as [|u ts]; [exists c, r; auto|]. rewrite joined_cons, E. exists c. eexists. split; [reflexivity|auto]. }
      clearbody J. destruct EJ as (c & r & E & N1 & N2).
      match goal with |- context [read_flow (S ?f)] => specialize (Q f) end. cbn [read_flow]. change (N.eqb LBRACKET LBRACKET) with true. cbn iota.
      assert (SK : skip_spaces (J ++ lit "]") = J ++ lit "]") by (apply (skip_spaces_app 0); rewrite E; exact N1). rewrite SK. rewrite E in Q |- *. cbn [app] in Q |- *. rewrite (proj2 (N.eqb_neq _ _) N2).
      rewrite Q; [reflexivity|]. lia. }
    destruct R as (vs & R & K). exists (YSeq vs). split; [|split; [right; eauto|]].
    2:{ cbn [shallow]. apply forallb_forall. intros x I. clear -K I. induction K as [|y o vs os Ky K IH]; [destruct I|]. destruct I as [-> |I]; [exact (kind_shallow _ _ Ky)|auto]. }
    split; [|split; [|split; [|split]]].
    + apply no_newline_app; [vm_compute; intros [X|[]]; discriminate X|]. apply no_newline_app; [exact NL|]. vm_compute; intros [X|[]]; discriminate X.
    + exists LBRACKET, (joined (lit ", ") ts ++ lit "]"). split; [reflexivity|split; discriminate].
    + exact R.
    + apply calm_app; [apply calm_chars; reflexivity| |].
      * apply calm_app; [exact C|apply calm_chars; reflexivity|discriminate].
      * destruct (joined (lit ", ") ts); [discriminate|exact HH].
    + exists (lit "[" ++ joined (lit ", ") ts), RBRACKET. rewrite <- app_assoc. split; [reflexivity|split; discriminate].
Qed.
Lemma listed_entries es gs : Forall2 listed es gs -> exists ens : list entry, Forall entry_ok ens /\ map (fun e : entry => (fst (fst e), fst (snd e))) ens = es /\
  Forall2 (fun (e : entry) g => kind (snd (fst e)) (fst g) /\ value_kind (snd (snd e)) (snd g)) ens gs.
Proof.
  induction 1 as [|[K V] [o os] es gs (H & L & W) F (ens & IH1 & IH2 & IH3)]; [exists []; repeat split; constructor|]. cbn [fst snd] in *.
  destruct (scalar_key K o H L) as (k & KW & KK). destruct (values_written V os W) as (v & VW & VK & VS). exists (((K, k), (V, v)) :: ens). split; [|split].
  - constructor; [split; [assumption|split; assumption]|exact IH1].
  - cbn [map fst snd]. rewrite IH2. reflexivity.
  - constructor; [split; assumption|exact IH3].
Qed.
Definition pair_item (k v : yval) : outcome item := f <- unwrap (as_str v) ;; t <- unwrap (as_str k) ;; Ok (Item f t).
Lemma seq_items k o xs os : kind k o -> Forall2 kind xs os ->
  (~ In None os /\ (o = None -> os = []) -> traverse (pair_item k) xs = Ok (map (fun x => Item (text x) (text o)) os)) /\
  (~ (~ In None os /\ (o = None -> os = [])) -> traverse (pair_item k) xs = Panic).
Proof.
  intros K F. split.
  - intros [N Z]. induction F as [|v x xs os V F IH]; [reflexivity|]. destruct x as [s|]; [|destruct N; left; reflexivity]. destruct o as [t|]; [|specialize (Z eq_refl); discriminate Z].
    cbn [kind] in *. subst. cbn [traverse map text]. change (pair_item (YStr t) (YStr s)) with (Ok (Item s t)). cbn [bind]. rewrite IH; [reflexivity| |discriminate]. intros I; apply N; right; exact I.
  - intros B. destruct o as [t|].
    + assert (I : In None os).
      { destruct (in_dec (fun a b : option str => ltac:(decide equality; apply (list_eq_dec N.eq_dec))) None os) as [I|I]; [exact I|]. destruct B. split; [exact I|discriminate]. }
      clear B. cbn [kind] in K. subst k. induction F as [|v x xs os V F IH]; [destruct I|]. cbn [traverse]. destruct x as [s|].
      * cbn [kind] in V. subst v. change (pair_item (YStr t) (YStr s)) with (Ok (Item s t)). cbn [bind]. rewrite IH; [reflexivity|]. destruct I as [I|I]; [discriminate I|exact I].
      * destruct V as [-> |[-> | ->]]; reflexivity.
    + destruct F as [|v x xs os V F]; [destruct B; split; [intros []|reflexivity]|]. cbn [traverse]. unfold pair_item at 1. assert (P : unwrap (as_str k) = Panic) by (destruct K as [-> |[-> | ->]]; reflexivity). rewrite P.
      destruct (unwrap (as_str v)) eqn:U; [reflexivity| |reflexivity]. destruct (as_str v); discriminate U.
Qed.
Lemma entry_items k v o os : kind k o -> value_kind v os -> (usable (o, os) -> yaml_entry_items (k, v) = Ok (map (fun x => Item (text x) (text o)) os)) /\
  (~ usable (o, os) -> yaml_entry_items (k, v) = Panic).
Proof.
  intros K [(x & -> & V)|(xs & -> & F)]; [|exact (seq_items k o xs os K F)].
  pose proof (seq_items k o [v] [x] K (Forall2_cons _ _ V (Forall2_nil _))) as [A B].
  assert (E : yaml_entry_items (k, v) = traverse (pair_item k) [v]).
  { assert (Q : is_sequence v = false) by (destruct x as [s|]; cbn [kind] in V; [subst v; reflexivity|destruct V as [-> |[-> | ->]]; reflexivity]). cbn [yaml_entry_items traverse]. rewrite Q. unfold pair_item.
    destruct (unwrap (as_str v)); cbn [bind]; [|reflexivity|reflexivity]. destruct (unwrap (as_str k)); reflexivity. }
  rewrite E. split; [exact A|exact B].
Qed.
Lemma items_of_entries m : yaml_items (YMap [(YStr (lit "items"), YMap m)]) = (its <- traverse yaml_entry_items m ;; Ok (concat its)).
Proof. reflexivity. Qed.
Lemma table_of_entries w p m : w_yaml w p = Some (Some (YMap [(YStr (lit "items"), YMap m)])) ->
  table_from_yaml_path w p = (its <- traverse yaml_entry_items m ;; Ok (table_from_corr (concat its) (OriginFile p))).
Proof.
  intros H. unfold table_from_yaml_path, read_yaml. rewrite H. cbn [bind]. rewrite items_of_entries. destruct (traverse yaml_entry_items m); reflexivity.
Qed.
Lemma traverse_app {A B} (f : A -> outcome B) l1 l2 : traverse f (l1 ++ l2) = (a <- traverse f l1 ;; b <- traverse f l2 ;; Ok (a ++ b)).
Proof.
  induction l1 as [|x l1 IH]; [cbn [app traverse bind]; destruct (traverse f l2); reflexivity|]. cbn [app traverse]. rewrite IH. destruct (f x); cbn [bind]; [|reflexivity|reflexivity].
  destruct (traverse f l1); cbn [bind]; [|reflexivity|reflexivity]. destruct (traverse f l2); reflexivity.
Qed.
Lemma file_entries es gs w p : es <> [] -> Forall2 listed es gs -> NoDup (map fst gs) -> yaml_file w p (items_text es) -> exists kvs,
  table_from_yaml_path w p = (its <- traverse yaml_entry_items kvs ;; Ok (table_from_corr (concat its) (OriginFile p))) /\
  Forall2 (fun kv g => kind (fst kv) (fst g) /\ value_kind (snd kv) (snd g)) kvs gs.
Proof.
  intros N F D Y. destruct (listed_entries es gs F) as (ens & A & B & C). exists (map entry_value ens). split.
  - apply table_of_entries. unfold yaml_file in Y. rewrite <- B, items_text_entries in Y. apply Y, read_sound, entries_document; [intros ->; apply N; symmetry; exact B|exact A|].
    apply (kinds_fresh _ (map fst gs)) with (sos := []); [|exact D|constructor|intros o _ []]. clear -C. induction C as [|e g ens gs [K _] C IH]; cbn [map]; constructor; assumption.
  - clear -C. induction C as [|[[K k] [V v]] g ens gs H C IH]; cbn [map]; constructor; assumption.
Qed.
(** A file of lines [replacement: replaced] or [replacement: [replaced, replaced]], no replacement twice, is the table of these items in order... *)
Theorem C88_items_text : forall es gs w p, es <> [] -> Forall2 listed es gs -> NoDup (map fst gs) -> yaml_file w p (items_text es) -> Forall usable gs ->
  exists t, table_from_yaml_path w p = Ok t /\ table_items t = listed_items gs.
Proof.
  intros es gs w p N F D Y U. destruct (file_entries es gs w p N F D Y) as (kvs & E & K). exists (table_from_corr (listed_items gs) (OriginFile p)). split; [|reflexivity]. rewrite E. clear -K U.
  assert (X : exists its, traverse yaml_entry_items kvs = Ok its /\ concat its = listed_items gs).
  { induction K as [|[k v] [o os] kvs gs [K V] F IH]; [exists []; split; reflexivity|]. inversion U as [|? ? U1 U2]; subst. destruct (IH U2) as (its & T & C). cbn [fst snd] in *.
    exists (map (fun x => Item (text x) (text o)) os :: its). cbn [traverse]. rewrite (proj1 (entry_items k v o os K V) U1). cbn [bind]. rewrite T. split; [reflexivity|]. cbn [concat]. rewrite C. reflexivity. }
  destruct X as (its & T & C). rewrite T. cbn [bind]. rewrite C. reflexivity.
Qed.
Print Assumptions C88_items_text.
(** ... unless a number, truth value or null stands where a text should: then loading panics. *)
Theorem C88_no_text_panics : forall es gs o w p, Forall2 listed es gs -> NoDup (map fst gs) -> yaml_file w p (items_text es) -> (exists g, In g gs /\ ~ usable g) ->
  table_from_yaml_path w p = Panic /\ (is_yaml p -> from_config_file o w p = Panic).
Proof.
  intros es gs o w p F D Y (g & I & B). enough (P : table_from_yaml_path w p = Panic) by (split; [exact P|intros X; apply (C44_yaml_failures o w p X), P]).
  destruct (file_entries es gs w p) as (kvs & E & K); [intros ->; inversion F; subst; destruct I|exact F|exact D|exact Y|]. rewrite E.
  assert (X : traverse yaml_entry_items kvs = Panic); [|rewrite X; reflexivity]. clear -K I B.
  assert (NE : forall kv g, kind (fst kv) (fst g) /\ value_kind (snd kv) (snd g) -> forall e, yaml_entry_items kv <> Err e).
  { intros [k v] [o os] [K1 V1] e Q. cbn [fst snd] in *. destruct (entry_items k v o os K1 V1) as [A1 A2].
    assert (U : usable (o, os) \/ ~ usable (o, os)).
    { unfold usable. cbn [fst snd]. destruct (in_dec (fun a b : option str => ltac:(decide equality; apply (list_eq_dec N.eq_dec))) None os) as [J|J]; [tauto|].
      destruct o as [t|]; [left; split; [exact J|discriminate]|]. destruct os as [|x os]; [left; split; [exact J|reflexivity]|]. right. intros [_ Z]. specialize (Z eq_refl). discriminate Z. }
    destruct U as [U|U]; [rewrite (A1 U) in Q|rewrite (A2 U) in Q]; discriminate Q. }
  induction K as [|kv g' kvs gs KV F IH]; [destruct I|]. cbn [traverse]. destruct I as [-> |I].
  - destruct kv as [k v], g as [o os], KV as [K1 V1]. rewrite (proj2 (entry_items k v o os K1 V1) B). reflexivity.
  - rewrite (IH I). destruct (yaml_entry_items kv) as [x|e|] eqn:Q; [reflexivity| |reflexivity]. destruct (NE _ _ KV _ Q).
Qed.
Print Assumptions C88_no_text_panics.
(** The sample of README.md for [items] is a list: the file cannot be used. *)
Theorem C88_readme_items_panics : forall o w p, yaml_file w p readme_items ->
  table_from_yaml_path w p = Panic /\ (is_yaml p -> from_config_file o w p = Panic).
Proof.
  intros o w p F. enough (P : table_from_yaml_path w p = Panic) by (split; [exact P|intros X; apply (C44_yaml_failures o w p X), P]).
  assert (W : w_yaml w p = Some (Some (YMap [(YStr (lit "items"), YSeq [YMap [(YStr (lit "from"), YStr (lit "a")); (YStr (lit "to"), YStr (lit "A"))]])]))) by (apply F, read_sound; vm_compute; reflexivity).
  unfold table_from_yaml_path, read_yaml. rewrite W. reflexivity.
Qed.
Print Assumptions C88_readme_items_panics.
(** So is the example file. *)
Theorem C88_example_panics : forall o w p, is_yaml p -> yaml_file w p example_yaml_text -> from_config_file o w p = Panic.
Proof.
  intros o w p Y F. apply (C85_yaml_example_panics o w p Y). apply F, read_sound. vm_compute. reflexivity.
Qed.
Print Assumptions C88_example_panics.
(** The file of the tests: seven modifiers, then one conversion made of the first characters of [items].
    The former conversion reads a line [D: d] as "replace D", the latter a line [A: a] as "replace a". *)
Theorem C88_test_yaml : forall o w p, is_yaml p -> yaml_file w p test_yaml -> forall n, neologdn_new o = Ok n ->
  from_config_file o w p = Ok
    [MConv [(0x44, 0x64); (0x45, 0x65)]%N; MElim [0x7E; 0x223C; 0x223E; 0x301C; 0x3030; 0xFF5E]%N; MRed 0x30FC%N; MDot; MTrim;
     MLig [([0x30CF; 0x309C], [0x30D1])]%N; MNeo n; MConv [(0x61, 0x41); (0x62, 0x42); (0x63, 0x43); (0x73, 0x43)]%N].
Proof.
  intros o w p Y F n Hn. rewrite neologdn_new_eq in Hn.
  assert (W : w_yaml w p = Some (Some match read_document test_yaml with Some v => v | None => YNull end)) by (apply F, read_sound; vm_compute; reflexivity).
  apply ext_yaml_iff in Y. unfold from_config_file, configuration_from_path, load_file_with_ext. rewrite Y.
  cbn [bind]. unfold load_items_to_character_converter, load_modifiers, table_from_yaml_path, modifiers_from_yaml_path, read_yaml. rewrite W. clear F W.
  assert (E : forall i, neologdn_new (sub o i) = Ok n) by (intros i; rewrite neologdn_new_eq; exact Hn). clear Hn.
  set (d := match read_document test_yaml with Some v => v | None => YNull end). vm_compute in d. subst d. cbn [bind].
  cbv -[neologdn_new sub]. rewrite E. reflexivity.
Qed.
Print Assumptions C88_test_yaml.
(** The file of the Python tests: the wide letters A to E, the comment line being ignored. *)
Theorem C88_python_test_yaml : forall o w p, is_yaml p -> yaml_file w p python_test_yaml -> exists c, from_config_file o w p = Ok c /\
  forall s out, result c s out <-> out = map (fun x => if (N.leb 0xFF21 x && N.leb x 0xFF25)%bool then (x - 0xFEE0)%N else x) s.
Proof.
  intros o w p Y F. exists [MConv (map (fun x => (x, (x - 0xFEE0)%N)) [0xFF21; 0xFF22; 0xFF23; 0xFF24; 0xFF25]%N)]. split.
  - assert (W : w_yaml w p = Some (Some match read_document python_test_yaml with Some v => v | None => YNull end)) by (apply F, read_sound; vm_compute; reflexivity).
    apply ext_yaml_iff in Y. unfold from_config_file, configuration_from_path, load_file_with_ext. rewrite Y.
    cbn [bind]. unfold load_items_to_character_converter, load_modifiers, table_from_yaml_path, modifiers_from_yaml_path, read_yaml. rewrite W. clear F W.
    vm_compute. reflexivity.
  - intros s out. rewrite (does_conv _ s out). match goal with |- (_ = map ?f s) <-> (_ = map ?g s) => assert (E : map f s = map g s) end; [|split; intros ->; [exact E|symmetry; exact E]].
    apply map_ext. intros x. destruct (N.leb_spec 0xFF21 x); destruct (N.leb_spec x 0xFF25); cbn [andb]; unfold conv1; cbn -[N.eqb N.sub].
    + assert (C : x = 0xFF21%N \/ x = 0xFF22%N \/ x = 0xFF23%N \/ x = 0xFF24%N \/ x = 0xFF25%N) by lia.
      destruct C as [->|[->|[->|[->| ->]]]]; reflexivity.
    + rewrite !(proj2 (N.eqb_neq _ _)) by lia. reflexivity.
    + rewrite !(proj2 (N.eqb_neq _ _)) by lia. reflexivity.
    + rewrite !(proj2 (N.eqb_neq _ _)) by lia. reflexivity.
Qed.
Print Assumptions C88_python_test_yaml.
Definition text_world (t : str) : world := yaml_world match read_document t with Some v => v | None => YNull end.
Definition case_lines : list (str * str) :=
  [(lit """1""", [0x3042; 0x3044]%N); (lit "k", lit "'a''b'"); (lit "1" ++ [0x500B]%N, lit "[x-1, ""2,3""]"); (lit "true", lit "[]")].
Definition case_groups : list (option str * list (option str)) :=
  [(Some (lit "1"), [Some [0x3042; 0x3044]%N]); (Some (lit "k"), [Some (lit "a'b")]); (Some (lit "1" ++ [0x500B]%N), [Some (lit "x-1"); Some (lit "2,3")]); (None, [])].
Definition case_items : list item := [Item [0x3042; 0x3044]%N (lit "1"); Item (lit "a'b") (lit "k"); Item (lit "x-1") (lit "1" ++ [0x500B]%N); Item (lit "2,3") (lit "1" ++ [0x500B]%N)].
Lemma quoted_self : forall s, forallb (fun c => N.leb 0x20 c && N.leb c 0x7E && negb (N.eqb c 0x22) && negb (N.eqb c 0x5C))%bool s = true -> quoted s s.
Proof.
  induction s as [|c s IH]; intros H; [constructor|]. cbn [forallb] in H. apply andb_true_iff in H as [H K]. constructor; [|exact (IH K)].
      rewrite !andb_true_iff, !negb_true_iff, !N.eqb_neq, !N.leb_le in H. unfold quotable, shown. lia.
Qed.
Lemma plain_is s : read_plain s = Some (YStr s) -> plain_word s.
Proof. intros H. apply read_plain_iff in H as [(_ & H)|[(E & _)|[(E & _)|(E & _)]]]; [exact H|discriminate E..]. Qed.
Example C88_case :
  items_text case_lines = lit "items:" ++ [NEWLINE] ++ lit "  ""1"": " ++ [0x3042; 0x3044; NEWLINE]%N ++ lit "  k: 'a''b'" ++ [NEWLINE] ++
    lit "  1" ++ [0x500B]%N ++ lit ": [x-1, ""2,3""]" ++ [NEWLINE] ++ lit "  true: []" ++ [NEWLINE] /\
  Forall2 listed case_lines case_groups /\ NoDup (map fst case_groups) /\ Forall usable case_groups /\ listed_items case_groups = case_items /\
  yaml_file (text_world (items_text case_lines)) ex_path (items_text case_lines) /\
  table_from_yaml_path (text_world (items_text case_lines)) ex_path = Ok (Table case_items (OriginFile ex_path)) /\
  (* without the quotation marks around 1 *)
  table_from_yaml_path (text_world (items_text [(lit "1", [0x3042]%N); (lit "k", lit "b")])) ex_path = Panic /\
  table_from_yaml_path (text_world (items_text [(lit "k", lit "[a, 1]")])) ex_path = Panic /\
  (forall t, In t [readme_items; readme_modifiers; test_yaml; python_test_yaml; example_yaml_text] -> exists v, document_text t v /\ yaml_file (text_world t) ex_path t) /\
  no_text (lit "1") /\ number (lit "+0.50").
Proof.
  split; [vm_compute; reflexivity|]. split; [|split; [|split; [|split; [|split; [|split; [|split; [|split; [|split; [|split]]]]]]]]].
  - pose proof quoted_self as Q.
    repeat apply Forall2_cons; [..|apply Forall2_nil]; unfold listed; cbn [fst snd scalar]; (split; [|split; [apply Nat.ltb_lt; reflexivity|]]).
    + left. match goal with |- exists b, _ /\ quoted b ?s => exists s end. split; [reflexivity|apply Q; reflexivity].
    + left. eexists. split; [reflexivity|]. right. right. split; [reflexivity|]. apply plain_is. vm_compute. reflexivity.
    + right. right. split; [reflexivity|]. apply plain_is. vm_compute. reflexivity.
    + left. eexists. split; [reflexivity|]. right. left. exists (lit "a''b"). split; [reflexivity|]. apply s_char; [left; split; discriminate|discriminate|]. apply (s_mark (lit "b") (lit "b")). apply s_char; [left; split; discriminate|discriminate|constructor].
    + right. right. split; [reflexivity|]. apply plain_is. vm_compute. reflexivity.
    + right. exists [lit "x-1"; lit """2,3"""]. split; [reflexivity|]. constructor; [|constructor; [|constructor]]; (split; [|right; vm_compute; intros H; repeat (destruct H as [H|H]; [discriminate H|]); exact H]).
      * right. right. split; [reflexivity|]. apply plain_is. vm_compute. reflexivity.
      * left. match goal with |- exists b, _ /\ quoted b ?s => exists s end. split; [reflexivity|apply Q; reflexivity].
    + split; [right; left; reflexivity|apply Nat.leb_le; reflexivity].
    + right. exists []. split; [reflexivity|]. constructor.
  - vm_compute. repeat constructor; cbn [In]; intros H; repeat (destruct H as [H|H]; [discriminate H|]); exact H.
  - repeat constructor; cbn [fst snd In]; try discriminate; intros H; repeat (destruct H as [H|H]; [discriminate H|]); exact H.
  - reflexivity.
  - intros v H. apply document_read in H. unfold text_world. rewrite H. reflexivity.
  - vm_compute. reflexivity.
  - vm_compute. reflexivity.
  - vm_compute. reflexivity.
  - intros t I. assert (A : exists v, read_document t = Some v); [|destruct A as [v A]; exists v; split; [exact (read_sound t v A)|intros v' H; apply document_read in H; unfold text_world; rewrite H; reflexivity]].
    assert (B : forallb (fun t => match read_document t with Some _ => true | None => false end) [readme_items; readme_modifiers; test_yaml; python_test_yaml; example_yaml_text] = true) by (vm_compute; reflexivity).
    rewrite forallb_forall in B. specialize (B t I). destruct (read_document t) as [v|]; [exists v; reflexivity|discriminate B].
  - left. exists [], (lit "1"), []. split; [reflexivity|]. split; [auto|]. split; [discriminate|]. split; [constructor; [unfold digit; vm_compute; split; discriminate|constructor]|]. split; [discriminate|auto].
  - exists (lit "+"), (lit "0"), (lit ".50"). split; [reflexivity|]. split; [auto|]. split; [discriminate|]. split; [constructor; [unfold digit; vm_compute; split; discriminate|constructor]|]. split; [reflexivity|].
    right. exists (lit "50"). split; [reflexivity|]. repeat (constructor; [unfold digit; vm_compute; split; discriminate|]). constructor.
Qed.
