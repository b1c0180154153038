(** Properties C58, C59: tables built from files; the table printed by the output tool. *)
From Coq Require Import String.
From Verif Require Import Base BaseFacts StrOps Corr Table Charset Converter ModifierKind PathModel Yaml File ChanomaModel
  Configuration Cli CharSpec Spec CorrFacts CorrProps TableFacts CharsetFacts NeoFacts NeoProps PropsConverter PropsPipeline
  FileSpec PathSpec ConfigSpec BinSpec FileProps PathProps YamlProps ConfigProps BinProps PropsFile PropsConfig.
Local Open Scope string_scope.
Local Open Scope list_scope.

(** ** C58 *)
(** [TableBuilder::from_csv_path]/[from_yaml_path]: the content of the file at the canonical path, unsorted
    and with repetitions; the canonical path is remembered. *)
Theorem C58_from_csv_path : forall w p t, builder_from_csv_path w p = Ok t <->
  exists q recs rows, w_canonicalize w p = Some q /\ w_csv w q = Some recs /\ hd_error recs <> Some CsvIoError /\
    tl recs = map CsvFields rows /\ rows_items rows (table_items t) /\ t_origin t = OriginFile q.
Proof.
  intros w p t. unfold builder_from_csv_path, canonicalize. destruct (w_canonicalize w p) as [q|].
  - cbn [bind]. rewrite C39_iff. split.
    + intros (recs & rows & H). exists q, recs, rows. split; [reflexivity|exact H].
    + intros (q' & recs & rows & E & H). injection E as <-. exists recs, rows. exact H.
  - split; [discriminate|]. intros (q & _ & _ & E & _). discriminate.
Qed.
Print Assumptions C58_from_csv_path.
Theorem C58_from_yaml_path : forall w p t, builder_from_yaml_path w p = Ok t <->
  exists q data, w_canonicalize w p = Some q /\ w_yaml w q = Some (Some data) /\
    items_described data (table_items t) /\ t_origin t = OriginFile q.
Proof.
  intros w p t. unfold builder_from_yaml_path, canonicalize. destruct (w_canonicalize w p) as [q|].
  - cbn [bind]. rewrite C42_iff. split.
    + intros (data & H). exists q, data. split; [reflexivity|exact H].
    + intros (q' & data & E & H). injection E as <-. exists data. exact H.
  - split; [discriminate|]. intros (q & _ & E & _). discriminate.
Qed.
Print Assumptions C58_from_yaml_path.
(** A path without a canonical form is an I/O error, for both formats. *)
Theorem C58_no_canonical_path : forall w p, w_canonicalize w p = None ->
  builder_from_csv_path w p = Err IoError /\ builder_from_yaml_path w p = Err IoError.
Proof. intros w p H. unfold builder_from_csv_path, builder_from_yaml_path, canonicalize. rewrite H. split; reflexivity. Qed.
Print Assumptions C58_no_canonical_path.
(** [add_from_csv]/[add_from_yaml] make the table the ordered set union, under its old origin... *)
Definition merged (t : table) (items : list item) (t' : table) : Prop :=
  ordered item_lt (table_items t') /\ (forall it, In it (table_items t') <-> In it (table_items t) \/ In it items) /\
  t_origin t' = t_origin t.
Lemma merged_add o t tf : merged t (table_items tf) (table_add o t (table_corr tf)).
Proof.
  split; [apply table_add_strict|]. split; [|reflexivity]. intros it. rewrite table_add_In. reflexivity.
Qed.
Lemma merged_unique t items t1 t2 : merged t items t1 -> merged t items t2 -> t1 = t2.
Proof.
  intros (S1 & I1 & O1) (S2 & I2 & O2). destruct t1 as [a oa], t2 as [b ob]. cbn in *. f_equal; [|congruence].
  apply strict_ext; [exact S1|exact S2|]. intros it. rewrite I1, I2. reflexivity.
Qed.
Theorem C58_add_from_csv : forall o w p t t', add_from_csv o w p t = Ok t' <->
  exists recs rows items, w_csv w p = Some recs /\ hd_error recs <> Some CsvIoError /\
    tl recs = map CsvFields rows /\ rows_items rows items /\ merged t items t'.
Proof.
  intros o w p t t'. unfold add_from_csv. rewrite bind_ok. split.
  - intros (tf & E & H). injection H as <-. apply C39_iff in E as (recs & rows & H1 & H2 & H3 & H4 & _).
    exists recs, rows, (table_items tf). repeat split; try assumption; apply (merged_add o t tf).
  - intros (recs & rows & items & H1 & H2 & H3 & H4 & H5). exists (Table items (OriginFile p)). split.
    + apply C39_iff. exists recs, rows. auto.
    + f_equal. apply (merged_unique t items); [|exact H5]. apply (merged_add o t (Table items (OriginFile p))).
Qed.
Print Assumptions C58_add_from_csv.
Theorem C58_add_from_yaml : forall o w p t t', add_from_yaml o w p t = Ok t' <->
  exists data items, w_yaml w p = Some (Some data) /\ items_described data items /\ merged t items t'.
Proof.
  intros o w p t t'. unfold add_from_yaml. rewrite bind_ok. split.
  - intros (tf & E & H). injection H as <-. apply C42_iff in E as (data & H1 & H2 & _).
    exists data, (table_items tf). repeat split; try assumption; apply (merged_add o t tf).
  - intros (data & items & H1 & H2 & H3). exists (Table items (OriginFile p)). split.
    + apply C42_iff. exists data. auto.
    + f_equal. apply (merged_unique t items); [|exact H3]. apply (merged_add o t (Table items (OriginFile p))).
Qed.
Print Assumptions C58_add_from_yaml.
(** ... and fail exactly as reading the file fails. *)
Theorem C58_add_failures : forall o w p t,
  (forall e, add_from_csv o w p t = Err e <-> table_from_csv_path w p = Err e) /\
  (add_from_csv o w p t = Panic <-> table_from_csv_path w p = Panic) /\
  (forall e, add_from_yaml o w p t = Err e <-> table_from_yaml_path w p = Err e) /\
  (add_from_yaml o w p t = Panic <-> table_from_yaml_path w p = Panic).
Proof.
  intros o w p t. unfold add_from_csv, add_from_yaml.
  destruct (table_from_csv_path w p), (table_from_yaml_path w p); cbn [bind]; repeat split; intros; try congruence.
Qed.
Print Assumptions C58_add_failures.
(** Adding a file twice is adding it once; the order of two files does not matter. *)
Theorem C58_add_commutes : forall o1 o2 o3 o4 w p q t a b c d,
  add_from_csv o1 w p t = Ok a -> add_from_yaml o2 w q a = Ok b ->
  add_from_yaml o3 w q t = Ok c -> add_from_csv o4 w p c = Ok d -> b = d.
Proof.
  intros o1 o2 o3 o4 w p q t a b c d A B C D. unfold add_from_csv, add_from_yaml in *.
  apply bind_ok in A as (f & Ef & A). injection A as <-. rewrite Ef in D. cbn [bind] in D. injection D as <-.
  apply bind_ok in B as (g & Eg & B). injection B as <-. rewrite Eg in C. cbn [bind] in C. injection C as <-.
  apply (merged_unique t (table_items f ++ table_items g)).
  - split; [apply table_add_strict|]. split; [|reflexivity]. intros it. rewrite !table_add_In, in_app_iff.
    unfold table_corr, synth, table_items. tauto.
  - split; [apply table_add_strict|]. split; [|reflexivity]. intros it. rewrite !table_add_In, in_app_iff.
    unfold table_corr, synth, table_items. tauto.
Qed.
Print Assumptions C58_add_commutes.
Theorem C58_add_twice : forall o o' w p t a b, add_from_csv o w p t = Ok a -> add_from_csv o' w p a = Ok b -> b = a.
Proof.
  intros o o' w p t a b A B. unfold add_from_csv in *. apply bind_ok in A as (f & Ef & A). injection A as <-.
  rewrite Ef in B. cbn [bind] in B. injection B as <-. apply (merged_unique t (table_items f)); [|apply merged_add].
  split; [apply table_add_strict|]. split; [|reflexivity]. intros it. rewrite !table_add_In.
  unfold table_corr, synth, table_items. tauto.
Qed.
Print Assumptions C58_add_twice.
(** "The two ways to read a file give the same conversion" holds for files that give every character one
    replacement... *)
Definition unambiguous (items : list item) : Prop := forall a b c, In a items -> In b items ->
  begins (from a) c -> begins (from b) c -> forall t, begins (to a) t -> begins (to b) t.
Lemma last_match_member items c t : unambiguous items -> no_empty_string items ->
  (last_match items c t <-> exists it, In it items /\ begins (from it) c /\ begins (to it) t).
Proof.
  intros U N. split.
  - intros (l1 & it & l2 & -> & H1 & H2 & _). exists it. split; [apply in_elt|]. auto.
  - intros (it & H1 & H2 & H3). induction items as [|x l IH] using rev_ind; [destruct H1|].
    destruct (from x) as [|d f] eqn:Ef.
    { unfold no_empty_string in N. rewrite Forall_app in N. destruct N as [_ N]. apply Forall_inv in N. tauto. }
    destruct (N.eq_dec d c) as [->|Hd].
    + exists l, x, []. split; [reflexivity|]. assert (B : begins (from x) c) by (exists f; exact Ef).
      split; [exact B|]. split; [|constructor]. apply (U it x c); auto. apply in_app_iff. right; left; reflexivity.
    + destruct IH as (l1 & y & l2 & -> & A & B & C).
      * intros a b e Ha Hb. apply U; apply in_app_iff; left; assumption.
      * unfold no_empty_string in *. apply Forall_app in N. tauto.
      * apply in_app_iff in H1 as [H1|[<-|[]]]; [exact H1|]. destruct H2 as (r & E). rewrite Ef in E. congruence.
      * exists l1, y, (l2 ++ [x]). split; [rewrite <- app_assoc; reflexivity|]. split; [exact A|]. split; [exact B|].
        apply Forall_app. split; [exact C|]. constructor; [|constructor]. intros (r & E). rewrite Ef in E. congruence.
Qed.
Lemma last_match_same a b : (forall it, In it a <-> In it b) -> unambiguous a -> no_empty_string a ->
  forall c t, last_match a c t <-> last_match b c t.
Proof.
  intros H U N c t. rewrite last_match_member by assumption.
  rewrite last_match_member.
  - split; intros (it & A & B); exists it; split; try exact B; apply H, A.
  - intros x y d Hx Hy. apply U; apply H; assumption.
  - unfold no_empty_string in *. rewrite Forall_forall in *. intros it Hi. apply N, H, Hi.
Qed.
Lemma from_table_result t c : chanoma_from_table t = Ok c -> no_empty_string (table_items t) /\
  forall s out, result c s out <-> pointwise (last_match (table_items t)) s out.
Proof.
  unfold chanoma_from_table. rewrite from_tables_one. destruct (forallb nonempty_item (table_items t)) eqn:E; [|discriminate].
  intros H. cbn in H. injection H as <-. apply no_empty_iff in E. split; [exact E|].
  exact (proj2 (realises_conv _ _ (conv_collect_rel _ E))).
Qed.
Theorem C58_same_conversion : forall o w p q a b ca cb, w_canonicalize w p = Some q ->
  builder_from_csv_path w p = Ok a -> add_from_csv o w q table_new = Ok b -> unambiguous (table_items a) ->
  chanoma_from_table a = Ok ca -> chanoma_from_table b = Ok cb ->
  forall s out, result ca s out <-> result cb s out.
Proof.
  intros o w p q a b ca cb Hq Ha Hb U Hca Hcb s out.
  apply from_table_result in Hca as [Na Ra]. apply from_table_result in Hcb as [_ Rb]. rewrite Ra, Rb.
  unfold builder_from_csv_path, canonicalize in Ha. rewrite Hq in Ha. cbn [bind] in Ha.
  unfold add_from_csv in Hb. rewrite Ha in Hb. cbn [bind] in Hb. injection Hb as <-.
  assert (E : forall it, In it (table_items a) <-> In it (table_items (table_add o table_new (table_corr a)))).
  { intros it. rewrite table_add_In. unfold table_corr, synth, table_items. cbn. tauto. }
  split; apply pointwise_iff; intros c t; [|symmetry]; apply last_match_same; assumption.
Qed.
Print Assumptions C58_same_conversion.
(** ... and fails for others: the last row wins in one case, the greatest item in the other. *)
Definition ex_conflict : world := csv_world [fields ["x"; "y"]; fields ["a"; "z"]; fields ["a"; "b"]].
Theorem C58_same_conversion_refuted : exists o w p q a b ca cb s, w_canonicalize w p = Some q /\
  builder_from_csv_path w p = Ok a /\ add_from_csv o w q table_new = Ok b /\
  chanoma_from_table a = Ok ca /\ chanoma_from_table b = Ok cb /\
  normalize false o ca s = Ok (lit "b") /\ normalize false o cb s = Ok (lit "z").
Proof.
  exists no_order, ex_conflict, ex_path, ex_path, (Table [Item (lit "a") (lit "z"); Item (lit "a") (lit "b")] (OriginFile ex_path)),
    (Table [Item (lit "a") (lit "b"); Item (lit "a") (lit "z")] OriginNew), [MConv [(97, 98)]%N], [MConv [(97, 122)]%N], (lit "a").
  repeat split; vm_compute; reflexivity.
Qed.
Print Assumptions C58_same_conversion_refuted.
Definition ex_two_rows : world := csv_world [fields ["x"; "y"]; fields ["c"; "d"]; fields ["b"; "a"; "z"]; fields ["c"; "d"]].
Example C58_case :
  builder_from_csv_path ex_two_rows ex_path = Ok (Table [Item (lit "c") (lit "d"); Item (lit "b") (lit "z"); Item (lit "a") (lit "z"); Item (lit "c") (lit "d")] (OriginFile ex_path)) /\
  add_from_csv other_order ex_two_rows ex_path table_new = Ok (Table [Item (lit "a") (lit "z"); Item (lit "b") (lit "z"); Item (lit "c") (lit "d")] OriginNew) /\
  unambiguous [Item (lit "c") (lit "d"); Item (lit "b") (lit "z"); Item (lit "a") (lit "z"); Item (lit "c") (lit "d")].
Proof.
  split; [reflexivity|]. split; [vm_compute; reflexivity|].
  intros a b c Ha Hb (r & Er) (r' & Er') t Ht.
  destruct Ha as [<-|[<-|[<-|[<-|[]]]]], Hb as [<-|[<-|[<-|[<-|[]]]]]; cbn in Er, Er'; congruence || exact Ht.
Qed.
Example C58_relative_case : builder_from_yaml_path
    (World (fun _ => true) (fun _ => None)
       (fun q => if str_eqb q (lit "/d/t") then Some (Some (YMap [(YStr (lit "items"), YMap [(YStr (lit "x"), YStr (lit "a"))])])) else None)
       (fun p => if str_eqb p (lit "t") then Some (lit "/d/t") else None) EnvAbsent None None) (lit "t") =
  Ok (Table [Item (lit "a") (lit "x")] (OriginFile (lit "/d/t"))).
Proof. reflexivity. Qed.

(** ** C59 *)
Opaque ALL_items.
Lemma output_eq o fmt : output_main o fmt =
  match format_from_str fmt with
  | FCsv => OutCsv (to_csv_records o (synth ALL_items))
  | FYaml => OutYaml (to_serialized_corr o (synth ALL_items))
  end.
Proof. unfold output_main. rewrite builder_preset_new. reflexivity. Qed.
Lemma ALL_items_nodup : NoDup ALL_items.
Proof.
  assert (H : ordered item_lt ALL_items).
  { pose proof (table_add_strict no_order table_new ALL) as H. fold (builder_preset no_order table_new) in H.
    rewrite builder_preset_new in H. exact H. }
  revert H. generalize ALL_items. induction l as [|x l IH]; intros H; constructor.
  - intros Hx. destruct H as [H _]. rewrite Forall_forall in H. apply H in Hx.
    revert Hx. apply item_lt_irrefl.
  - apply IH, H.
Qed.
(** One row per replacement, in increasing order of the replacements; every preset item exactly once. *)
Theorem C59_csv_output : forall o fmt, fmt <> lit "yaml" -> exists rows items, output_main o fmt = OutCsv rows /\
  ordered lex_lt (map (fun row => last row []) rows) /\
  rows_items rows items /\ NoDup items /\ forall it, In it items <-> preset_item it.
Proof.
  intros o fmt Hf. rewrite output_eq. unfold format_from_str. destruct (str_eqb fmt (lit "yaml")) eqn:E.
  { apply str_eqb_eq in E. contradiction. }
  destruct (C38_lemma ALL_items) as (S & _ & P).
  eexists. eexists. split; [reflexivity|]. unfold to_csv_records, synth. split.
  { rewrite map_map. rewrite (map_ext _ fst); [exact S|]. intros kv. apply last_last. }
  split; [apply export_rows|]. change (Permutation (flat_map group_items (item_map ALL_items)) ALL_items) in P. split.
  - apply (Permutation_NoDup (Permutation_sym P)), ALL_items_nodup.
  - intros it. rewrite <- ALL_items_rel. split; apply Permutation_in; [|symmetry]; exact P.
Qed.
Print Assumptions C59_csv_output.
Lemma export_no_modifiers o c : modifiers_described (to_serialized_corr o c) [].
Proof. left. split; [|reflexivity]. intros v H. apply yget_iff in H. discriminate. Qed.
Theorem C59_yaml_output : forall o, exists data items, output_main o (lit "yaml") = OutYaml data /\
  items_described data items /\ modifiers_described data [] /\ NoDup items /\ forall it, In it items <-> preset_item it.
Proof.
  intros o. rewrite output_eq. destruct (C38_lemma ALL_items) as (_ & _ & P).
  change (Permutation (flat_map group_items (item_map ALL_items)) ALL_items) in P.
  eexists. eexists. split; [reflexivity|]. split; [apply export_described|]. split; [apply export_no_modifiers|]. split.
  - apply (Permutation_NoDup (Permutation_sym P)), ALL_items_nodup.
  - intros it. rewrite <- ALL_items_rel. split; apply Permutation_in; [|symmetry]; exact P.
Qed.
Print Assumptions C59_yaml_output.
Theorem C59_deterministic : forall o o' fmt, output_main o fmt = output_main o' fmt.
Proof. intros o o' fmt. rewrite !output_eq. reflexivity. Qed.
Print Assumptions C59_deterministic.
(** Printed as YAML and used as configuration file, the table acts like the preset... *)
Lemma preset_functional c t u : preset_rel c t -> preset_rel c u -> t = u.
Proof. intros H H'. apply PRESET_get in H. apply PRESET_get in H'. congruence. Qed.
Lemma last_match_rel items (R : char -> char -> Prop) : (forall c t u, R c t -> R c u -> t = u) ->
  (forall it, In it items <-> exists c t, R c t /\ it = Item [c] [t]) -> no_empty_string items /\ forall c t, last_match items c t <-> R c t.
Proof.
  intros F H.
  assert (N : no_empty_string items).
  { unfold no_empty_string. rewrite Forall_forall. intros it Hi. apply H in Hi as (c & t & _ & ->). split; discriminate. }
  split; [exact N|]. intros c t. rewrite last_match_member; [|clear c t|exact N].
  - split.
    + intros (it & Hi & (r & Hf) & (r' & Ht)). apply H in Hi as (c' & t' & HR & ->). cbn in Hf, Ht. congruence.
    + intros HR. exists (Item [c] [t]). split; [apply H; exists c, t; auto|]. split; eexists; reflexivity.
  - intros a b c Ha Hb (r & Er) (r' & Er') t Ht. apply H in Ha as (ca & ta & Ra & ->). apply H in Hb as (cb & tb & Rb & ->).
    cbn in *. assert (ca = cb) by congruence. subst cb. rewrite (F _ _ _ Rb Ra). exact Ht.
Qed.
Theorem C59_yaml_reload : forall o data, output_main o (lit "yaml") = OutYaml data ->
  forall o' w p, is_yaml p -> w_yaml w p = Some (Some data) -> exists c, from_config_file o' w p = Ok c /\
    forall s out, result c s out <-> pointwise preset_rel s out.
Proof.
  intros o data H o' w p X W. destruct (C59_yaml_output o) as (data' & items & E & D & M & _ & I). rewrite H in E.
  injection E as <-. destruct (last_match_rel items preset_rel preset_functional I) as [N L].
  destruct (C44_if o' w p _ (fe_yaml w p data items [] X W D N M)) as (c & Hc). exists c. split; [exact Hc|].
  pose proof Hc as Hc'. apply (C44_yaml o' w p c X) in Hc' as (items' & ms & (d & W' & D') & N' & Hm & ->).
  rewrite W in W'. injection W' as <-. rewrite (yaml_modifiers_iff o' w p data W) in Hm. apply modifiers_ok_inv in Hm as (effs & M' & F).
  assert (E1 : effs = []).
  { destruct M as [[Mn _]|(l & K & Fl)].
    - destruct M' as [[_ M']|(l' & K' & _)]; [exact M'|]. destruct (Mn _ K').
    - inversion Fl; subst l. destruct M' as [[_ M']|(l' & K' & F')]; [exact M'|].
      pose proof (key_value_det _ _ _ _ K K') as Q. injection Q as <-. inversion F'. reflexivity. }
  subst effs. inversion F; subst. cbn [app].
  assert (E2 : items' = items).
  { apply yaml_items_iff in D. apply yaml_items_iff in D'. congruence. }
  subst items'. intros s out. rewrite (proj2 (realises_conv _ _ (conv_collect_rel _ N))).
  split; apply pointwise_iff; intros c t; [|symmetry]; apply L.
Qed.
Print Assumptions C59_yaml_reload.
(** ... printed as CSV, it acts like the preset except that the ideographic space stays... *)
Lemma preset_least : forallb (fun q => N.leb 0x20 (snd q) && (negb (N.eqb (snd q) 0x20) || N.eqb (fst q) 0x3000)) PRESET = true.
Proof. vm_compute. reflexivity. Qed.
Lemma preset_rel_least c t : preset_rel c t -> (0x20 <= t)%N /\ (t = 0x20%N -> c = 0x3000%N).
Proof.
  intros H. apply PRESET_rel in H. pose proof preset_least as L. rewrite forallb_forall in L. apply L in H. cbn [fst snd] in H.
  apply andb_true_iff in H as [A B]. apply N.leb_le in A. split; [exact A|]. intros ->. cbn in B. apply N.eqb_eq, B.
Qed.
Lemma csv_reloaded o w p : w_csv w p = Some (map CsvFields (to_csv_records o (synth ALL_items))) ->
  exists t, table_from_csv_path w p = Ok t /\
    forall it, In it (table_items t) <-> exists c u, (preset_rel c u /\ c <> 0x3000%N) /\ it = Item [c] [u].
Proof.
  intros W. destruct (C40_drop o (synth ALL_items) w p W) as (t & lost & E & P & Ne & Same & Less).
  exists t. split; [exact E|]. unfold synth in *.
  assert (M : forall it, In it ALL_items <-> In it (table_items t) \/ In it lost).
  { intros it. rewrite <- in_app_iff. split; apply Permutation_in; [symmetry|]; exact P. }
  assert (S : In (Item [0x3000] [0x20])%N ALL_items) by (apply ALL_items_rel; exists 0x3000%N, 0x20%N; split; [apply pr_space|reflexivity]).
  assert (Ls : In (Item [0x3000] [0x20])%N lost).
  { apply M in S as S'. destruct S' as [S'|S']; [|exact S'].
    destruct lost as [|x lost]. { destruct Ne; [|reflexivity]. intros Z. rewrite Z in S. destruct S. }
    assert (Hx : In x ALL_items) by (apply M; right; left; reflexivity). apply ALL_items_rel in Hx as (c & u & R & ->).
    pose proof (Less _ _ (or_introl eq_refl) S') as Z. cbn [to] in Z. apply preset_rel_least in R as [R _].
    inversion Z; subst; [lia|]. match goal with H : lex_lt [] [] |- _ => inversion H end. }
  intros it. split.
  - intros Hi. assert (Ha : In it ALL_items) by (apply M; left; exact Hi). apply ALL_items_rel in Ha as (c & u & R & ->).
    exists c, u. split; [|reflexivity]. split; [exact R|]. intros ->. pose proof (preset_functional _ _ _ R pr_space). subst u.
    pose proof (Less _ _ Ls Hi) as Z. exact (lex_lt_irrefl _ Z).
  - intros (c & u & (R & Hc) & ->). assert (Ha : In (Item [c] [u]) ALL_items) by (apply ALL_items_rel; exists c, u; auto).
    apply M in Ha as [Ha|Ha]; [exact Ha|]. pose proof (Same _ _ Ha Ls) as Z. cbn in Z. injection Z as ->.
    apply preset_rel_least in R. destruct Hc. apply R. reflexivity.
Qed.
Theorem C59_csv_reload : forall o fmt rows, output_main o fmt = OutCsv rows ->
  forall o' w p, has_extension p (lit "csv") -> w_csv w p = Some (map CsvFields rows) -> exists c, from_config_file o' w p = Ok c /\
    forall s out, result c s out <-> pointwise (fun c t => preset_rel c t /\ c <> 0x3000%N) s out.
Proof.
  intros o fmt rows H o' w p X W. rewrite output_eq in H. destruct (format_from_str fmt); [|discriminate].
  injection H as <-. destruct (csv_reloaded o w p W) as (t & E & I).
  destruct (last_match_rel (table_items t) (fun c t => preset_rel c t /\ c <> 0x3000%N)) as [N L].
  { intros c a b [A _] [B _]. exact (preset_functional _ _ _ A B). }
  { exact I. }
  eexists. split.
  - apply (C44_csv o' w p _ X). exists (table_items t). eexists. split.
    + apply load_table_iff. cbn [load_table]. rewrite <- (load_table_origin w p Csv t E). exact E.
    + split; [exact N|]. split; reflexivity.
  - intros s out. rewrite (proj2 (realises_conv _ _ (conv_collect_rel _ N))).
    split; apply pointwise_iff; intros c u; [|symmetry]; apply L.
Qed.
Print Assumptions C59_csv_reload.
(** ... so the CSV output is not the table. *)
Theorem C59_csv_reload_refuted : exists o rows w p c s, output_main o (lit "csv") = OutCsv rows /\ has_extension p (lit "csv") /\
  w_csv w p = Some (map CsvFields rows) /\ from_config_file o w p = Ok c /\
  result c s s /\ ~ pointwise preset_rel s s.
Proof.
  assert (X : has_extension (lit "/t.csv") (lit "csv")) by (apply ext_csv_iff; reflexivity).
  destruct (C59_csv_output no_order (lit "csv")) as (rows & items & E & _); [discriminate|].
  destruct (C59_csv_reload no_order _ rows E no_order (csv_world (map CsvFields rows)) (lit "/t.csv") X eq_refl) as (c & Hc & R).
  exists no_order, rows, (csv_world (map CsvFields rows)), (lit "/t.csv"), c, [0x3000%N].
  split; [exact E|]. split; [exact X|]. split; [reflexivity|]. split; [exact Hc|]. split.
  - apply R. constructor; [|constructor]. right. split; [reflexivity|]. intros t [_ N]. apply N. reflexivity.
  - intros P. inversion P as [|x y l l' H _]; subst. destruct H as [H|[_ H]].
    + exact (preset_rel_final _ _ _ H H).
    + exact (H _ pr_space).
Qed.
Print Assumptions C59_csv_reload_refuted.
Transparent ALL_items.
(** First rows; any other format name is CSV. *)
Example C59_case :
  firstn 3 (match output_main other_order (lit "YAML") with OutCsv rows => rows | OutYaml _ => [] end) =
    [[[0x3000]; [0x20]]; [[0xFF01]; [0x21]]; [[0x201D]; [0x22]]]%N /\
  match output_main no_order (lit "yaml") with OutCsv rows => None | OutYaml v => yget (lit "items") v end <> None.
Proof. split; vm_compute; [reflexivity|discriminate]. Qed.
