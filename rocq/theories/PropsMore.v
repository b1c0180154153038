(** Properties C66 and C68: YAML [items] against [character_converter]; the character sets of the Python module. *)
From Coq Require Import String.
From Verif Require Import Base BaseFacts StrOps Corr CharsetData Table Charset Converter Neologdn ModifierKind PathModel Yaml File ChanomaModel
  Configuration Cli Python CharSpec Spec TableFacts CharsetFacts PropsConverter PropsPipeline CorrFacts
  FileSpec PathSpec ConfigSpec BinSpec PathProps FileProps YamlProps ConfigProps CjkProps PropsFile PropsConfig BinProps PropsBin
  CorrProps PropsNeo ConverterFacts ConverterProps PropsTableFile.
Local Open Scope string_scope.
Local Open Scope list_scope.

(** ** C66 *)
(** A document whose only content is one [character_converter] modifier. *)
Definition converter_document (items : list item) : yval :=
  YMap [(ystr "modifiers", YMap [(ystr "character_converter", YMap (map (fun it => (YStr (from it), YStr (to it))) items))])].
Lemma conv_result items : no_empty_string items -> forall s out,
  result [MConv (hm_collect N.eqb (pairs_of items))] s out <-> pointwise (last_match items) s out.
Proof. intros N. apply (realises_conv _ (last_match items)). apply conv_collect_rel, N. Qed.
Lemma last_match_none s out : pointwise (last_match []) s out <-> out = s.
Proof.
  rewrite <- (conv_result []); [|constructor]. split.
  - intros (o & H). cbn [pairs_of map] in H. rewrite normalize_conv in H. apply Ok_inj in H. subst. rewrite <- (map_id s) at 2. apply map_ext. reflexivity.
  - intros ->. exists no_order. rewrite normalize_conv. f_equal. rewrite <- (map_id s) at 2. apply map_ext. reflexivity.
Qed.
Lemma converter_document_effect o w q items : is_yaml q -> w_yaml w q = Some (Some (converter_document items)) -> no_empty_string items ->
  exists c, from_config_file o w q = Ok c /\ forall s out, result c s out <-> pointwise (last_match items) s out.
Proof.
  intros X D N. exists ([MConv (hm_collect N.eqb (pairs_of items))] ++ [MConv (hm_collect N.eqb (pairs_of []))]). split.
  - apply (C44_yaml o w q _ X). exists [], [MConv (hm_collect N.eqb (pairs_of items))].
    split; [exists (converter_document items); split; [exact D|]|].
    { left. split; [|reflexivity]. apply yget_None. reflexivity. }
    split; [constructor|]. split; [|reflexivity].
    rewrite (yaml_modifiers_iff o w q _ D).
    change (modifiers_of_yaml o (converter_document items)) with
      (m <- (x <- (kvs <- traverse conv_entry (map item_entry items) ;; Ok (hm_collect N.eqb kvs)) ;; Ok (MConv x)) ;; Ok [m]).
    assert (E : traverse conv_entry (map item_entry items) = Ok (pairs_of items)) by (apply conv_entries_iff; exists items; auto).
    rewrite E. reflexivity.
  - intros s out. rewrite result_app. split.
    + intros (mid & H1 & H2). apply (conv_result items N) in H1. apply (conv_result []) in H2; [|constructor]. apply last_match_none in H2. subst. exact H1.
    + intros H. exists out. split; [apply (conv_result items N), H|]. apply (conv_result []); [constructor|]. apply last_match_none. reflexivity.
Qed.
(** A document with [items] only and one with a [character_converter] only, for the same pairs. *)
Theorem C66_items_or_converter : forall o w p q data items pairs, is_yaml p -> is_yaml q ->
  w_yaml w p = Some (Some data) -> items_described data items -> (forall v, ~ key_value data (lit "modifiers") v) ->
  w_yaml w q = Some (Some (converter_document pairs)) ->
  no_empty_string items -> (forall it, In it items <-> In it pairs) -> unambiguous items ->
  exists a b, from_config_file o w p = Ok a /\ from_config_file o w q = Ok b /\ forall s out, result a s out <-> result b s out.
Proof.
  intros o w p q data items pairs X Y D I M D' N S U.
  destruct (converter_document_effect o w q pairs Y D') as (b & Hb & Rb).
  { unfold no_empty_string in *. rewrite Forall_forall in *. intros it Hi. apply N, S, Hi. }
  exists [MConv (hm_collect N.eqb (pairs_of items))], b. split.
  { apply (C44_yaml o w p _ X). exists items, []. split; [exists data; auto|]. split; [exact N|]. split; [|reflexivity].
    rewrite (yaml_modifiers_iff o w p data D). unfold modifiers_of_yaml. apply yget_None in M. rewrite M. reflexivity. }
  split; [exact Hb|]. intros s out. rewrite (conv_result items N), Rb.
  split; apply pointwise_iff; intros c t; [|symmetry]; apply last_match_same; assumption.
Qed.
Print Assumptions C66_items_or_converter.
(** When a character has two replacements the order of the entries matters in both. *)
Definition items_document (items : list item) : yval :=
  YMap [(ystr "items", YMap (map (fun it => (YStr (to it), YStr (from it))) items))].
Definition two_world (a b : yval) : world :=
  World (fun _ => true) (fun _ => None) (fun p => Some (Some (if str_eqb p (lit "a.yaml") then a else b))) (fun p => Some p) EnvAbsent None None.
Theorem C66_ambiguous_refuted : exists o w p q items pairs a b s, is_yaml p /\ is_yaml q /\
  w_yaml w p = Some (Some (items_document items)) /\ w_yaml w q = Some (Some (converter_document pairs)) /\
  (forall it, In it items <-> In it pairs) /\ from_config_file o w p = Ok a /\ from_config_file o w q = Ok b /\
  normalize false o a s <> normalize false o b s.
Proof.
  exists no_order, (two_world (items_document [Item (lit "a") (lit "x"); Item (lit "ab") (lit "y")]) (converter_document [Item (lit "ab") (lit "y"); Item (lit "a") (lit "x")])),
    (lit "a.yaml"), (lit "b.yaml"), [Item (lit "a") (lit "x"); Item (lit "ab") (lit "y")], [Item (lit "ab") (lit "y"); Item (lit "a") (lit "x")].
  eexists. eexists. exists (lit "a"). split; [left; apply extension_iff; reflexivity|]. split; [left; apply extension_iff; reflexivity|].
  split; [reflexivity|]. split; [reflexivity|]. split; [cbn [In]; intros it; tauto|]. split; [reflexivity|]. split; [reflexivity|].
  vm_compute. discriminate.
Qed.
Print Assumptions C66_ambiguous_refuted.
(** Beside other modifiers the two differ: [items] always come last. *)
Definition with_trim (e : yval) (rest : list (yval * yval)) : yval := YMap ((ystr "modifiers", e) :: rest).
Theorem C66_beside_modifiers_refuted : exists o w p q a b s, is_yaml p /\ is_yaml q /\
  w_yaml w p = Some (Some (with_trim (YMap [(ystr "trim", YNull)]) [(ystr "items", YMap [(ystr "_", ystr " ")])])) /\
  w_yaml w q = Some (Some (with_trim (YMap [(ystr "character_converter", YMap [(ystr " ", ystr "_")]); (ystr "trim", YNull)]) [])) /\
  from_config_file o w p = Ok a /\ from_config_file o w q = Ok b /\
  normalize false o a s = Ok (lit "x_y") /\ normalize false o b s = Ok (lit "_x_y_").
Proof.
  eexists no_order, (two_world _ _), (lit "a.yaml"), (lit "b.yaml"), _, _, (lit " x y ").
  split; [left; apply extension_iff; reflexivity|]. split; [left; apply extension_iff; reflexivity|].
  split; [reflexivity|]. split; [reflexivity|]. split; [reflexivity|]. split; [reflexivity|]. split; vm_compute; reflexivity.
Qed.
Print Assumptions C66_beside_modifiers_refuted.
Example C66_case : exists a b,
  from_config_file no_order (two_world (YMap [(ystr "items", YMap [(ystr "x", YSeq [ystr "a"; ystr "b"]); (ystr "y", ystr "c")])])
    (converter_document [Item (lit "c") (lit "y"); Item (lit "b") (lit "x"); Item (lit "a") (lit "x")])) (lit "a.yaml") = Ok a /\
  from_config_file no_order (two_world (YMap [(ystr "items", YMap [(ystr "x", YSeq [ystr "a"; ystr "b"]); (ystr "y", ystr "c")])])
    (converter_document [Item (lit "c") (lit "y"); Item (lit "b") (lit "x"); Item (lit "a") (lit "x")])) (lit "b.yaml") = Ok b /\
  normalize false no_order a (lit "abcd") = Ok (lit "xxyd") /\ normalize false no_order b (lit "abcd") = Ok (lit "xxyd").
Proof. eexists. eexists. repeat split; vm_compute; reflexivity. Qed.

(** ** C68 *)
(** What the set of each class contains: preset pairs by kind of character, and the CJK squares. *)
Definition fullwidth_digit (c : char) : Prop := (0xFF10 <= c <= 0xFF19)%N.
Definition fullwidth_letter (c : char) : Prop := (0xFF21 <= c <= 0xFF3A)%N \/ (0xFF41 <= c <= 0xFF5A)%N.
Definition halfwidth_kana (c : char) : Prop := (0xFF61 <= c <= 0xFF9F)%N \/ c = 0x3000%N.
Definition of_class (s : py_set) (c : char) : Prop :=
  match s with
  | PyDigits => fullwidth_digit c
  | PyAlphabets => fullwidth_letter c
  | PyKanas => halfwidth_kana c
  | PyPunctuations => ~ fullwidth_digit c /\ ~ fullwidth_letter c /\ ~ halfwidth_kana c
  | PyCjkCompatibilities => False
  end.
Definition set_item (s : py_set) (it : item) : Prop :=
  (exists c t, preset_rel c t /\ of_class s c /\ it = Item [c] [t]) \/
  (s = PyCjkCompatibilities /\ exists c v, cjk_rel c v /\ it = Item [c] v).
Definition of_classb (s : py_set) (c : char) : bool :=
  let d := (0xFF10 <=? c)%N && (c <=? 0xFF19)%N in
  let l := ((0xFF21 <=? c)%N && (c <=? 0xFF3A)%N) || ((0xFF41 <=? c)%N && (c <=? 0xFF5A)%N) in
  let k := ((0xFF61 <=? c)%N && (c <=? 0xFF9F)%N) || N.eqb c 0x3000 in
  match s with PyDigits => d | PyAlphabets => l | PyKanas => k | PyPunctuations => negb d && negb l && negb k | PyCjkCompatibilities => false end.
Lemma of_classb_iff s c : of_classb s c = true <-> of_class s c.
Proof.
  destruct s; cbn [of_classb of_class]; unfold fullwidth_digit, fullwidth_letter, halfwidth_kana;
    rewrite ?andb_true_iff, ?negb_true_iff, ?orb_true_iff, ?orb_false_iff, ?andb_false_iff, ?andb_true_iff, ?N.leb_le, ?N.leb_gt, ?N.eqb_eq, ?N.eqb_neq;
    [lia..|]. split; [discriminate|contradiction].
Qed.
Definition class_items (s : py_set) : list item :=
  match s with PyCjkCompatibilities => CJK_items | _ => filter (fun it => of_classb s (hd 0%N (from it))) ALL_items end.
Lemma set_items_eq o s : py_set_items o s = class_items s.
Proof.
  destruct s; cbn [py_set_items].
  - rewrite (ALPHABETS_indep o o_id). vm_compute. reflexivity.
  - rewrite (DIGITS_indep o o_id). vm_compute. reflexivity.
  - rewrite (PUNCTUATIONS_indep o o_id). vm_compute. reflexivity.
  - rewrite (KANAS_indep o o_id). vm_compute. reflexivity.
  - apply CJK_eq.
Qed.
Opaque CJK_COMPATIBILITIES CJK_items ALL_items.
Lemma cjk_class c v : cjk_rel c v -> forall t, ~ preset_rel c t.
Proof.
  intros H t P. assert (Hi : In (Item [c] v) (CJK_COMPATIBILITIES o_id)) by (apply (proj2 (C57_lemma _ _)); eauto).
  rewrite CJK_eq in Hi.
  assert (Hp : In (Item [c] [t]) ALL_items) by (apply ALL_items_rel; exists c, t; auto).
  assert (G : forallb (fun a => forallb (fun b => negb (str_eqb (from a) (from b))) ALL_items) CJK_items = true) by (vm_compute; reflexivity).
  rewrite forallb_forall in G. apply G in Hi. rewrite forallb_forall in Hi. apply Hi in Hp. cbn [from] in Hp.
  rewrite str_eqb_refl in Hp. discriminate.
Qed.
Theorem C68_contents : forall o s it, In it (py_set_items o s) <-> set_item s it.
Proof.
  intros o s it. unfold set_item. destruct s.
  5: { cbn [py_set_items]. rewrite C57_lemma. split.
    - intros (c & v & -> & H). right. eauto.
    - intros [(c & t & _ & [] & _)|(_ & c & v & H & ->)]. eauto. }
  all: rewrite set_items_eq; cbn [class_items]; rewrite filter_In, ALL_items_rel; unfold preset_item; split;
    [intros ((c & t & H & ->) & C); left; exists c, t; split; [exact H|]; split; [apply of_classb_iff; exact C|reflexivity]
    |intros [(c & t & H & C & ->)|(E & _)]; [split; [eauto|apply of_classb_iff in C; exact C]|discriminate E]].
Qed.
Print Assumptions C68_contents.
Theorem C68_add_sets : forall o l t it,
  In it (table_items (py_add_sets o l t)) <-> In it (table_items t) \/ exists s, In s l /\ set_item s it.
Proof.
  intros o l; revert o. induction l as [|s l IH]; intros o t it; cbn [py_add_sets].
  - cbn [In]. split; [auto|]. intros [H|(s & [] & _)]. exact H.
  - rewrite IH. unfold py_table_add. rewrite table_add_In. unfold synth. rewrite C68_contents. cbn [In]. split.
    + intros [[H|H]|(x & H1 & H2)]; [left; exact H|right; exists s; auto|right; exists x; auto].
    + intros [H|(x & [<-|H1] & H2)]; [auto|auto|right; exists x; auto].
Qed.
Print Assumptions C68_add_sets.
Lemma add_sets_strict l : forall o t, ordered item_lt (table_items t) -> ordered item_lt (table_items (py_add_sets o l t)).
Proof. induction l as [|s l IH]; intros o t H; cbn [py_add_sets]; [exact H|]. apply IH, table_add_strict. Qed.
Lemma add_sets_origin l : forall o t, t_origin (py_add_sets o l t) = t_origin t.
Proof. induction l as [|s l IH]; intros o t; cbn [py_add_sets]; [reflexivity|]. rewrite IH. reflexivity. Qed.
Lemma set_inhabited s : exists it, set_item s it /\ forall s', set_item s' it -> s' = s.
Proof.
  set (c := match s with PyAlphabets => 0xFF21 | PyDigits => 0xFF10 | PyPunctuations => 0xFF01 | PyKanas => 0x3000 | PyCjkCompatibilities => 0x3300 end%N).
  assert (G : exists it, from it = [c] /\ set_item s it).
  { assert (F : exists it, from it = [c] /\ In it (class_items s)).
    { assert (X : existsb (fun it => str_eqb (from it) [c]) (class_items s) = true) by (destruct s; vm_compute; reflexivity).
      apply existsb_exists in X as (it & X1 & X2). exists it. split; [|exact X1]. destruct (str_eqb_spec (from it) [c]); [assumption|discriminate]. }
    destruct F as (it & F1 & F2). exists it. split; [exact F1|]. rewrite <- (set_items_eq o_id) in F2. apply C68_contents in F2. exact F2. }
  destruct G as (it & F & S). exists it. split; [exact S|]. intros s' S'.
  destruct S as [(x & t & P & C & ->)|(-> & x & v & P & ->)]; cbn [from] in F; injection F as ->.
  - destruct S' as [(x' & t' & P' & C' & E)|(-> & x' & v & P' & E)].
    + injection E as <- _. apply of_classb_iff in C, C'. clear P P'. destruct s, s'; try reflexivity; cbn in C, C'; discriminate.
    + injection E as <- _. destruct (cjk_class _ _ P' _ P).
  - destruct S' as [(x' & t' & P' & C' & E)|(-> & _)]; [|reflexivity]. injection E as <- _. destruct (cjk_class _ _ P _ P').
Qed.
(** The table made of sets is the preset table exactly for the four sets without the CJK squares, in
    whatever order and number they are added. *)
Theorem C68_preset_iff : forall o o' w l pt, py_table_new o' w true None None = Ok pt ->
  (py_add_sets o l table_new = pt <-> forall s, In s l <-> s <> PyCjkCompatibilities).
Proof.
  intros o o' w l pt H. apply C52_table_union in H as H'. destruct H' as (tc & ty & _ & _ & O & M).
  assert (M' : forall it, In it (table_items pt) <-> preset_item it).
  { intros it. rewrite M. intuition congruence. }
  assert (P : forall it, preset_item it <-> exists s, s <> PyCjkCompatibilities /\ set_item s it).
  { intros it. split.
    - intros (c & t & R & ->). destruct (of_classb PyDigits c) eqn:D; [exists PyDigits|destruct (of_classb PyAlphabets c) eqn:A; [exists PyAlphabets|destruct (of_classb PyKanas c) eqn:K; [exists PyKanas|exists PyPunctuations]]];
        (split; [discriminate|]); left; exists c, t; (split; [exact R|]); (split; [apply of_classb_iff|reflexivity]); try assumption.
      cbn [of_classb] in *. rewrite D, A, K. reflexivity.
    - intros (s & N & [(c & t & R & _ & ->)|(-> & _)]); [exists c, t; auto|contradiction]. }
  assert (Org : t_origin pt = OriginNew).
  { unfold py_table_new in H. cbn [bind] in H. apply Ok_inj in H. subst pt. reflexivity. }
  split.
  - intros E s. destruct (set_inhabited s) as (it & S1 & S2).
    assert (X : In it (table_items pt) <-> In s l).
    { rewrite <- E, C68_add_sets. cbn [table_new table_items t_corr In]. split; [intros [[]|(s' & A & B)]; rewrite (S2 _ B) in A; exact A|intros A; right; exists s; auto]. }
    rewrite <- X, M', P. split; [intros (s' & N & B) ->; rewrite (S2 _ B) in N; contradiction|intros N; exists s; auto].
  - intros E. assert (I : table_items (py_add_sets o l table_new) = table_items pt).
    { apply strict_ext; [apply add_sets_strict; constructor|exact O|]. intros it. rewrite C68_add_sets, M', P. cbn [table_new table_items t_corr In].
      split; [intros [[]|(s & A & B)]; exists s; split; [apply E, A|exact B]|intros (s & A & B); right; exists s; split; [apply E, A|exact B]]. }
    pose proof (add_sets_origin l o table_new) as Q. destruct (py_add_sets o l table_new), pt. cbn in *. congruence.
Qed.
Print Assumptions C68_preset_iff.
(** Adding the CJK squares does not expand them. *)
Theorem C68_cjk_expanded_refuted : exists o w c out, py_chanoma_new o w (Some (py_add_sets o [PyCjkCompatibilities] table_new)) false false false None = Ok c /\
  cjk_rel 0x3300%N [0x30A2; 0x30D1; 0x30FC; 0x30C8]%N /\ py_normalize o c [0x3300%N] = Ok out /\ out = [0x30A2%N].
Proof.
  exists no_order, (csv_world []), [MConv CJK_conv], [0x30A2%N]. split.
  - unfold py_chanoma_new. cbn [bind].
    assert (E : py_add_sets no_order [PyCjkCompatibilities] table_new = Table CJK_items OriginNew).
    { cbn [py_add_sets]. rewrite set_items_eq. cbn [class_items]. unfold py_table_add, table_add, table_new. cbn [t_corr t_origin].
      rewrite corr_add_assign_usort. vm_compute. reflexivity. }
    rewrite E. pose proof (cjk_chanoma_eq no_order) as Q. rewrite cjk_table_eq in Q. unfold chanoma_from_table in Q. unfold add_table.
    destruct (from_tables [Table CJK_items OriginNew]) as [x|x|] eqn:F; cbn [bind] in *; [|discriminate Q..]. apply Ok_inj in Q. rewrite <- Q. reflexivity.
  - split; [|split; [vm_compute; reflexivity|reflexivity]].
    assert (Hi : In (Item [0x3300%N] [0x30A2; 0x30D1; 0x30FC; 0x30C8]%N) (CJK_COMPATIBILITIES o_id)) by (rewrite CJK_eq; vm_compute; left; reflexivity).
    apply (proj1 (C57_lemma o_id _)) in Hi. destruct Hi as (c & v & E & R). injection E as <- <-. exact R.
Qed.
Print Assumptions C68_cjk_expanded_refuted.
Example C68_case :
  (forall s, In s [PyKanas; PyDigits; PyKanas; PyPunctuations; PyAlphabets] <-> s <> PyCjkCompatibilities) /\
  exists c, py_chanoma_new no_order (csv_world []) (Some (py_add_sets no_order [PyDigits; PyKanas] table_new)) false false false None = Ok c /\
    py_normalize no_order c [0xFF21; 0xFF11; 0x3000; 0xFF76]%N = Ok [0xFF21; 0x31; 0x20; 0x30AB]%N.
Proof.
  split; [intros []; cbn [In]; intuition congruence|]. eexists. split; [vm_compute; reflexivity|vm_compute; reflexivity].
Qed.
