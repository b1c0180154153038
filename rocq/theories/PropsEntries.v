(** C117: the entries of a YAML configuration file and the rows of a CSV one. *)
From Coq Require Import String Lia.
From Verif Require Import Base Corr Table Converter Yaml PathModel File ModifierKind Configuration ChanomaModel Spec FileSpec PathSpec ConfigSpec BaseFacts PropsConverter PropsPipeline
  CommProps TableFacts PathProps ConfigProps PropsConfig RowsSpec PropsRows EntriesSpec.
Local Open Scope string_scope.
Local Open Scope list_scope.

Lemma texts_items t fs : traverse (fun v => f <- unwrap (as_str v) ;; u <- unwrap (as_str (YStr t)) ;; Ok (Item f u)) (map YStr fs) = Ok (map (fun f => Item f t) fs).
Proof. induction fs as [|f fs IH]; [reflexivity|]. cbn [map traverse as_str unwrap bind] in *. rewrite IH. reflexivity. Qed.
Lemma row_items_last fs t : record_items (fs ++ [t]) = Ok (map (fun f => Item f t) fs).
Proof.
  unfold record_items. rewrite rev_app_distr. cbn [rev app hd_error unwrap bind]. rewrite app_length. cbn [List.length].
  replace (List.length fs + 1 - 1) with (List.length fs) by lia. rewrite firstn_app, firstn_all, Nat.sub_diag. cbn [firstn]. rewrite app_nil_r. reflexivity.
Qed.
Lemma written_items e row : written e row -> exists its, yaml_entry_items e = Ok its /\ record_items row = Ok its.
Proof.
  intros [f t|fs t].
  - exists [Item f t]. split; reflexivity.
  - exists (map (fun f => Item f t) fs). split; [|apply row_items_last]. unfold yaml_entry_items. cbn [is_sequence as_sequence unwrap bind]. apply texts_items.
Qed.
Lemma all_items es rows : Forall2 written es rows -> exists its, traverse yaml_entry_items es = Ok its /\ csv_items (map CsvFields rows) = Ok (concat its).
Proof.
  induction 1 as [|e r es rows W F (its & A & B)]; [exists []; split; reflexivity|]. destruct (written_items e r W) as (i & C & D).
  exists (i :: its). cbn [traverse map csv_items]. rewrite A, B, C, D. split; reflexivity.
Qed.
Lemma tables_items t t' : table_items t = table_items t' -> from_tables [t] = from_tables [t'].
Proof. intros E. unfold from_tables. cbn [insert_tables]. rewrite E. reflexivity. Qed.
(** The file is read exactly as the CSV file with these rows, whether that loads or panics. *)
Theorem C117_as_csv : forall o w p o' w' q rows, yaml_file w p rows -> csv_file w' q rows -> from_config_file o w p = from_config_file o' w' q.
Proof.
  intros o w p o' w' q rows (X & es & W & F) (Y & h & V & H). apply ext_yaml_iff in X. apply ext_csv_iff in Y. destruct (all_items es rows F) as (its & A & B).
  unfold from_config_file, configuration_from_path, load_file_with_ext. rewrite X, Y. cbn [bind]. unfold load_items_to_character_converter, table_from_yaml_path, table_from_csv_path, read_yaml.
  rewrite W, V. cbn [bind]. unfold yaml_items. change (yget (lit "items") (YMap [(YStr (lit "items"), YMap es)])) with (Some (YMap es)). cbn [as_mapping unwrap bind]. rewrite A. cbn [bind].
  assert (M : load_modifiers o w p Yaml = Ok []).
  { unfold load_modifiers, modifiers_from_yaml_path, read_yaml. rewrite W. reflexivity. }
  rewrite M. replace (load_modifiers o' w' q Csv) with (@Ok (list modifier) []) by reflexivity.
  rewrite (tables_items (table_from_corr (concat its) (OriginFile p)) (table_from_corr (concat its) (OriginFile q)) eq_refl).
  destruct h; [| |contradiction]; cbn [tl]; rewrite B; reflexivity.
Qed.
(** ** A CSV file with given rows *)
Definition csv_world (rows : list (list str)) : world := World (fun _ => true) (fun _ => Some (CsvFields [] :: map CsvFields rows)) (fun _ => None) (fun p => Some p) EnvAbsent None None.
Lemma csv_world_file rows : csv_file (csv_world rows) (lit "a.csv") rows.
Proof. split; [apply ext_csv_iff; vm_compute; reflexivity|]. exists (CsvFields []). split; [reflexivity|discriminate]. Qed.
(** It loads exactly if no entry that replaces something has an empty text. *)
Theorem C117_loads : forall o w p rows, yaml_file w p rows -> ((exists c, from_config_file o w p = Ok c) <-> Forall usable rows).
Proof. intros o w p rows Y. rewrite (C117_as_csv o w p o (csv_world rows) (lit "a.csv") rows Y (csv_world_file rows)). apply C115_loads, csv_world_file. Qed.
(** What becomes of a character is what the last entry naming it says. *)
Theorem C117_effect : forall o w p rows c, yaml_file w p rows -> from_config_file o w p = Ok c -> forall s out, result c s out <-> Forall2 (target rows) s out.
Proof.
  intros o w p rows c Y E. rewrite (C117_as_csv o w p o (csv_world rows) (lit "a.csv") rows Y (csv_world_file rows)) in E.
  apply (C115_effect o (csv_world rows) (lit "a.csv") rows c (csv_world_file rows) E).
Qed.
(** Two such files do the same exactly if their entries say the same of every character. *)
Theorem C117_same_iff : forall o w p rows c o' w' p' rows' c', yaml_file w p rows -> from_config_file o w p = Ok c ->
  yaml_file w' p' rows' -> from_config_file o' w' p' = Ok c' ->
  ((forall s out, result c s out <-> result c' s out) <-> same_rows rows rows').
Proof.
  intros o w p rows c o' w' p' rows' c' Y E Y' E'. rewrite (C117_as_csv o w p o (csv_world rows) (lit "a.csv") rows Y (csv_world_file rows)) in E.
  rewrite (C117_as_csv o' w' p' o' (csv_world rows') (lit "a.csv") rows' Y' (csv_world_file rows')) in E'.
  apply (C115_same_iff _ _ _ _ _ _ _ _ _ _ (csv_world_file rows) E (csv_world_file rows') E').
Qed.
(** ** Files whose keys are pairwise different *)
Definition yaml_entry (row : list str) : yval * yval := (YStr (last row []), YSeq (map YStr (removelast row))).
Lemma written_entry row : row <> [] -> written (yaml_entry row) row.
Proof. intros N. unfold yaml_entry. rewrite (app_removelast_last [] N) at 3. apply wr_list. Qed.
Definition yaml_world (rows : list (list str)) : world :=
  World (fun _ => true) (fun _ => None) (fun _ => Some (Some (YMap [(YStr (lit "items"), YMap (map yaml_entry rows))]))) (fun p => Some p) EnvAbsent None None.
Lemma yaml_world_file rows : ~ In [] rows -> yaml_file (yaml_world rows) (lit "a.yaml") rows.
Proof.
  intros N. split; [apply ext_yaml_iff; vm_compute; reflexivity|]. exists (map yaml_entry rows). split; [reflexivity|].
  induction rows as [|r rows IH]; [constructor|]. cbn [map]. constructor; [apply written_entry; intros ->; apply N; left; reflexivity|apply IH; intros I; apply N; right; exact I].
Qed.
Lemma usable_not_nil rows : Forall usable rows -> ~ In [] rows.
Proof. intros F I. rewrite Forall_forall in F. destruct (F [] I) as [H|[H _]]; cbn in H; lia. Qed.
Lemma fewest_distinct rows : exists best, Forall usable best /\ same_rows best rows /\ distinct_keys best.
Proof.
  destruct (C115_fewest rows) as (ts & N & T & (best & U & S & L) & _). exists best. split; [exact U|]. split; [exact S|]. unfold distinct_keys.
  apply (NoDup_map_inv (fun g : str => match hd_error g with Some t => t | None => 0%N end)). rewrite map_map.
  refine (NoDup_incl_NoDup N _ _); [rewrite map_length; apply Nat.eq_le_incl; exact L|]. intros t I. apply T in I as (x & D & H). apply S in H. destruct H as [b r a u E K _|_]; [|contradiction].
  destruct K as (fs & f & g & -> & _). subst best. rewrite map_app. apply in_or_app. right. left. rewrite last_last. reflexivity.
Qed.
(** Whatever a CSV file does, a YAML file with pairwise different keys does. *)
Theorem C117_every_csv : forall o w p rows c, csv_file w p rows -> from_config_file o w p = Ok c ->
  exists w' p' rows' c', yaml_file w' p' rows' /\ distinct_keys rows' /\ from_config_file o w' p' = Ok c' /\ forall s out, result c s out <-> result c' s out.
Proof.
  intros o w p rows c C E. destruct (fewest_distinct rows) as (best & U & S & D). pose proof (yaml_world_file best (usable_not_nil best U)) as Y.
  destruct (proj2 (C117_loads o _ _ best Y) U) as (c' & E'). exists (yaml_world best), (lit "a.yaml"), best, c'. split; [exact Y|]. split; [exact D|]. split; [exact E'|].
  rewrite (C117_as_csv o _ _ o (csv_world best) (lit "a.csv") best Y (csv_world_file best)) in E'.
  apply (C115_same_iff o w p rows c o _ _ best c' C E (csv_world_file best) E'). intros x t. symmetry. apply S.
Qed.
(** YAML gives the entries of a mapping no order; here their order matters, also with different keys. *)
Theorem C117_order_refuted : exists o w p a b w' p' c c', yaml_file w p [a; b] /\ yaml_file w' p' [b; a] /\ distinct_keys [a; b] /\
  from_config_file o w p = Ok c /\ from_config_file o w' p' = Ok c' /\ exists s out, result c s out /\ ~ result c' s out.
Proof.
  set (a := [lit "x"; lit "y"]). set (b := [lit "x"; lit "z"]).
  assert (U : Forall usable [a; b]) by (apply Forall_forall; intros r [<-|[<-|[]]]; right; (split; [cbn; lia|intros I; cbn in I; intuition discriminate])).
  assert (V : Forall usable [b; a]) by (apply Forall_forall; intros r I; rewrite Forall_forall in U; apply U; destruct I as [<-|[<-|[]]]; cbn; auto).
  pose proof (yaml_world_file _ (usable_not_nil _ U)) as Y. pose proof (yaml_world_file _ (usable_not_nil _ V)) as Z.
  destruct (proj2 (C117_loads no_order _ _ _ Y) U) as (c & E). destruct (proj2 (C117_loads no_order _ _ _ Z) V) as (c' & E').
  exists no_order, (yaml_world [a; b]), (lit "a.yaml"), a, b, (yaml_world [b; a]), (lit "a.yaml"), c, c'. split; [exact Y|]. split; [exact Z|]. split; [|split; [exact E|split; [exact E'|]]].
  - unfold distinct_keys. cbn. constructor; [intros [H|[]]; discriminate H|constructor; [intros []|constructor]].
  - exists (lit "x"), (lit "z"). split.
    + apply (C117_effect _ _ _ _ _ Y E). constructor; [|constructor]. apply target_tgt. reflexivity.
    + intros R. apply (C117_effect _ _ _ _ _ Z E') in R. inversion R as [|? ? ? ? H]; subst. apply target_tgt in H. discriminate H.
Qed.
Example C117_case : exists w p, yaml_file w p [[lit "a"; lit "c"; lit "b"]; [lit "d"; lit "e"]] /\ exists c, from_config_file no_order w p = Ok c /\ result c (lit "abcd") (lit "bbbe").
Proof.
  assert (U : Forall usable [[lit "a"; lit "c"; lit "b"]; [lit "d"; lit "e"]]) by (apply Forall_forall; intros r [<-|[<-|[]]]; right; (split; [cbn; lia|intros I; cbn in I; intuition discriminate])).
  pose proof (yaml_world_file _ (usable_not_nil _ U)) as Y. eexists _, _. split; [exact Y|]. destruct (proj2 (C117_loads no_order _ _ _ Y) U) as (c & E). exists c. split; [exact E|].
  apply (C117_effect _ _ _ _ _ Y E). repeat (constructor; [apply target_tgt; vm_compute; reflexivity|]). constructor.
Qed.
Print Assumptions C117_as_csv. Print Assumptions C117_loads. Print Assumptions C117_effect. Print Assumptions C117_same_iff. Print Assumptions C117_every_csv. Print Assumptions C117_order_refuted.
