(** Property C85: the example files of the repository. *)
From Coq Require Import String.
From Verif Require Import Base BaseFacts Utf8 StrOps Corr Table Converter Neologdn ModifierKind ChanomaModel PathModel Yaml File Configuration Csv
  CharSpec Spec FileSpec PathSpec ConfigSpec CsvSpec ExampleData CharsetFacts CjkProps ConverterFacts ConverterProps SimpleFacts NeoFacts NeoProps
  TableFacts PathProps PropsConverter PropsPipeline YamlProps ConfigProps PropsFile PropsConfig PropsCsv CommProps PropsInterchange.
Local Open Scope string_scope.
Local Open Scope list_scope.

(** What the example table turns a character into. *)
Inductive example_rel : char -> char -> Prop :=
| er_preset c t : preset_rel c t -> ~ In c [0x3000; 0xFFE5; 0xFF0D]%N -> example_rel c t
| er_dash c : In c (0xFF0D%N :: dash_variants) -> example_rel c prolonged_mark
| er_hyphen c : In c hyphen_variants -> c <> 0xFF0D%N -> example_rel c 0x2D%N
| er_tilde c : In c tilde_variants -> example_rel c 0x7E%N
| er_cjk c t v : cjk_rel c (t :: v) -> (c = 0x33A3%N -> t :: v = lit "mm3") -> example_rel c t.

Definition example_records : list csv_record := Eval vm_compute in csv_of_file (FileBytes example_csv).
Definition example_rows : list (list str) :=
  Eval vm_compute in map (fun r => match r with CsvFields l => l | _ => [] end) (tl example_records).
Definition example_items : list item := Eval vm_compute in concat (map (fun row => map (fun f => Item f (last row [])) (removelast row)) example_rows).
Definition EXAMPLE : converter := Eval vm_compute in hm_collect N.eqb (pairs_of example_items).
Lemma EXAMPLE_nodup : NoDup (map fst EXAMPLE).
Proof. apply nodupb_NoDup. vm_compute. reflexivity. Qed.
Definition example_pairs : list (char * char) :=
  filter (fun p => negb (existsb (N.eqb (fst p)) [0x3000; 0xFFE5; 0xFF0D]%N)) preset_pairs ++
  map (fun c => (c, prolonged_mark)) (0xFF0D%N :: dash_variants) ++
  map (fun c => (c, 0x2D%N)) (filter (fun c => negb (N.eqb c 0xFF0D)) hyphen_variants) ++
  map (fun c => (c, 0x7E%N)) tilde_variants ++
  concat (map (fun it => match from it, to it with
                         | [c], t :: v => if (N.eqb c 0x33A3 && negb (str_eqb (t :: v) (lit "mm3")))%bool then [] else [(c, t)]
                         | _, _ => [] end) cjk_pairs).
Lemma example_pairs_rel c t : In (c, t) example_pairs <-> example_rel c t.
Proof.
  unfold example_pairs. rewrite !in_app_iff, filter_In, !in_map_iff, in_concat, preset_pairs_rel. cbn [fst]. split.
  - intros [(H & Hn)|[(x & E & Hx)|[(x & E & Hx)|[(x & E & Hx)|(l & Hl & Hx)]]]].
    + apply negb_true_iff, existsb_eqb_notin in Hn. apply er_preset; assumption.
    + injection E as <- <-. apply er_dash, Hx.
    + injection E as <- <-. apply filter_In in Hx as [Hx Hn]. apply negb_true_iff, N.eqb_neq in Hn. apply er_hyphen; assumption.
    + injection E as <- <-. apply er_tilde, Hx.
    + apply in_map_iff in Hl as (it & <- & Hi). apply cjk_pairs_rel in Hi as (d & v & -> & R). cbn [from to] in Hx.
      destruct v as [|u v]; [destruct Hx|]. destruct (N.eqb_spec d 0x33A3) as [->|Hd]; cbn [andb] in Hx.
      * destruct (str_eqb (u :: v) (lit "mm3")) eqn:E; cbn [negb] in Hx; [|destruct Hx]. destruct Hx as [Hx|[]]. injection Hx as <- <-.
        apply (er_cjk _ _ v R). intros _. apply str_eqb_eq, E.
      * destruct Hx as [Hx|[]]. injection Hx as <- <-. apply (er_cjk _ _ v R). intros Hd'. destruct (Hd Hd').
  - intros [d u H Hn|d H|d H Hn|d H|d u v R Hm].
    + left. split; [exact H|apply negb_true_iff, existsb_eqb_notin, Hn].
    + right; left. exists d. auto.
    + right; right; left. exists d. split; [reflexivity|]. apply filter_In. split; [exact H|apply negb_true_iff, N.eqb_neq, Hn].
    + right; right; right; left. exists d. auto.
    + right; right; right; right. exists [(d, u)]. split; [|left; reflexivity]. apply in_map_iff. exists (Item [d] (u :: v)).
      split; [|apply cjk_pairs_rel; exists d, (u :: v); auto]. cbn [from to]. destruct (N.eqb_spec d 0x33A3) as [->|]; [|reflexivity].
      rewrite (Hm eq_refl). reflexivity.
Qed.
Lemma EXAMPLE_rel c t : In (c, t) EXAMPLE <-> example_rel c t.
Proof. rewrite <- example_pairs_rel. apply pairs_same; vm_compute; reflexivity. Qed.
Lemma EXAMPLE_get c t : conv_get EXAMPLE c = Some t <-> example_rel c t.
Proof. rewrite conv_get_iff by exact EXAMPLE_nodup. apply EXAMPLE_rel. Qed.

Lemma example_loads o w p : has_extension p (lit "csv") -> file_at w p (FileBytes example_csv) -> from_config_file o w p = Ok [MConv EXAMPLE].
Proof.
  intros X F. apply (C44_csv o w p _ X). exists example_items, EXAMPLE. split; [|split; [|split; reflexivity]].
  - exists example_records, example_rows. split; [rewrite F; f_equal; vm_compute; reflexivity|]. split; [discriminate|]. split; [vm_compute; reflexivity|].
    exists (map (fun row => map (fun f => Item f (last row [])) (removelast row)) example_rows). split; [|vm_compute; reflexivity].
    assert (N : forallb (fun r => match r with [] => false | _ => true end) example_rows = true) by (vm_compute; reflexivity).
    rewrite forallb_forall in N. revert N. generalize example_rows. intros l. induction l as [|r l IH]; intros N; cbn [map]; constructor.
    + exists (removelast r), (last r []). split; [apply app_removelast_last|reflexivity]. intros ->. discriminate (N [] (or_introl eq_refl)).
    + apply IH. intros x Hx. apply N. right. exact Hx.
  - assert (N : forallb (fun it => match from it, to it with [], _ => false | _, [] => false | _, _ => true end) example_items = true) by (vm_compute; reflexivity).
    rewrite forallb_forall in N. apply Forall_forall. intros it Hi. specialize (N it Hi). destruct (from it), (to it); try discriminate. split; discriminate.
Qed.

(** ** C85 *)
(** The example CSV file as configuration: exactly this conversion. *)
Theorem C85_csv_example : forall o w p, has_extension p (lit "csv") -> file_at w p (FileBytes example_csv) ->
  exists c, from_config_file o w p = Ok c /\ forall s out, result c s out <-> pointwise example_rel s out.
Proof.
  intros o w p X F. exists [MConv EXAMPLE]. split; [exact (example_loads o w p X F)|]. exact (proj2 (realises_conv _ _ EXAMPLE_get)).
Qed.
Print Assumptions C85_csv_example.
(** It does not do everything the preset does... *)
Theorem C85_covers_preset_refuted : exists c, preset_rel c 0x20%N /\ becomes example_rel c c.
Proof.
  exists 0x3000%N. split; [apply pr_space|]. apply (becomes_conv1 EXAMPLE example_rel _ _ EXAMPLE_get). vm_compute. reflexivity.
Qed.
Print Assumptions C85_covers_preset_refuted.
(** ... and writes the first character only for a CJK square, although the file gives the whole word. *)
Theorem C85_squares_refuted : exists o w p c, has_extension p (lit "csv") /\ file_at w p (FileBytes example_csv) /\ from_config_file o w p = Ok c /\
  In (Item [0x3314]%N [0x30AD; 0x30ED]%N) example_items /\ forall out, result c [0x3314]%N out <-> out = [0x30AD]%N.
Proof.
  exists no_order, (csv_world example_records), (lit "table.csv"), [MConv EXAMPLE].
  assert (X : has_extension (lit "table.csv") (lit "csv")) by (apply ext_csv_iff; reflexivity).
  assert (F : file_at (csv_world example_records) (lit "table.csv") (FileBytes example_csv)) by (unfold file_at; cbn [csv_world w_csv]; f_equal; vm_compute; reflexivity).
  split; [exact X|]. split; [exact F|]. split; [apply example_loads; assumption|]. split; [|].
  - apply item_mem_In. vm_compute. reflexivity.
  - intros out. rewrite (does_conv EXAMPLE [0x3314%N] out). vm_compute map. reflexivity.
Qed.
Print Assumptions C85_squares_refuted.
(** The two files list the same pairs in the same order... *)
Theorem C85_same_pairs : forall recs, csv_of_file (FileBytes example_csv) = recs ->
  tl recs = map (fun p => CsvFields [fst p; snd p]) example_yaml_pairs.
Proof. intros recs <-. vm_compute. reflexivity. Qed.
Print Assumptions C85_same_pairs.
(** ... but the YAML file cannot be loaded. *)
Theorem C85_yaml_example_panics : forall o w p, is_yaml p -> w_yaml w p = Some (Some example_yaml) -> from_config_file o w p = Panic.
Proof.
  intros o w p Y H. apply (C44_yaml_failures o w p Y). apply (C42_list_format_panics w p example_yaml) with
    (l := map (fun p => YMap [(YStr (lit "from"), YStr (fst p)); (YStr (lit "to"), YStr (snd p))]) example_yaml_pairs); [exact H|].
  exists [], []. split; [reflexivity|]. intros v [].
Qed.
Print Assumptions C85_yaml_example_panics.
(** Before neologdn the example table changes nothing, the full-width hyphen and equals sign and CJK squares aside. *)
Theorem C85_before_neologdn : forall s mid, pointwise example_rel s mid ->
  Forall (fun c => c <> 0xFF0D%N /\ c <> 0xFF1D%N /\ ~ (0x3300 <= c <= 0x33FF)%N) s ->
  forall out, neologdn_result mid out <-> neologdn_result s out.
Proof.
  intros s mid P F out. apply (conv1_rel_unique _ _ EXAMPLE_get) in P. subst mid. rewrite <- !neo_text_result.
  replace (neo_text (map (conv1 EXAMPLE) s)) with (neo_text s); [reflexivity|]. apply neo_alike. unfold neo_conv_text. rewrite map_map.
  induction F as [|c s H F IH]; cbn [map]; constructor; [|exact IH]. clear - H.
  assert (Q : forallb (fun p => (N.eqb (fst p) 0xFF0D || N.eqb (fst p) 0xFF1D || (N.leb 0x3300 (fst p) && N.leb (fst p) 0x33FF) ||
    N.eqb (conv1 (neo_conv NEO) (fst p)) (conv1 (neo_conv NEO) (snd p)) ||
    (existsb (N.eqb (conv1 (neo_conv NEO) (fst p))) tilde_variants && existsb (N.eqb (conv1 (neo_conv NEO) (snd p))) tilde_variants))%bool) EXAMPLE = true)
    by (vm_compute; reflexivity).
  rewrite forallb_forall in Q. assert (X : conv1 EXAMPLE c = match conv_get EXAMPLE c with Some t => t | None => c end) by reflexivity. rewrite X. clear X.
  destruct (conv_get EXAMPLE c) as [t|] eqn:E; [|left; reflexivity].
  apply (conv_get_iff _ _ _ EXAMPLE_nodup) in E. specialize (Q _ E). cbn [fst snd] in Q. destruct H as (H1 & H2 & H3).
  apply N.eqb_neq in H1, H2. rewrite H1, H2 in Q. cbn [orb] in Q. apply orb_true_iff in Q as [Q|Q]; [apply orb_true_iff in Q as [Q|Q]|].
  - apply andb_true_iff in Q as [Q Q']. apply N.leb_le in Q, Q'. destruct (H3 (conj Q Q')).
  - apply N.eqb_eq in Q. left. exact Q.
  - apply andb_true_iff in Q as [Q Q']. right. apply existsb_exists in Q as (a & Ha & Q). apply existsb_exists in Q' as (b & Hb & Q').
    apply N.eqb_eq in Q, Q'. rewrite Q, Q'. auto.
Qed.
Print Assumptions C85_before_neologdn.
(** The exceptions are needed. *)
Theorem C85_before_neologdn_always_refuted : exists s mid out, pointwise example_rel s mid /\ neologdn_result s out /\ ~ neologdn_result mid out.
Proof.
  exists [0xFF0D]%N, [prolonged_mark], [0x2D]%N. split; [constructor; [left; apply er_dash; left; reflexivity|constructor]|].
  rewrite <- !neo_text_result. split; [vm_compute; reflexivity|vm_compute; discriminate].
Qed.
Print Assumptions C85_before_neologdn_always_refuted.
Example C85_case : result [MConv EXAMPLE] [0xFF21; 0x301C; 0x2014; 0xFF76; 0xFF9E; 0x3300; 0x3000]%N [0x41; 0x7E; 0x30FC; 0x30AB; 0xFF9E; 0x30A2; 0x3000]%N.
Proof. exists no_order. vm_compute. reflexivity. Qed.
