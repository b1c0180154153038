(** Property C111: what the configuration depends on. *)
From Coq Require Import String.
From Verif Require Import Base BaseFacts StrOps Corr Table Charset Converter ModifierKind PathModel Yaml File ChanomaModel Configuration
  Cli Csv Process CharSpec Spec CorrProps TableFacts PropsConverter PropsPipeline FileSpec PathSpec ConfigSpec FileProps PathProps YamlProps ConfigProps
  PropsFile PropsConfig FrameSpec.
Local Open Scope string_scope.
Local Open Scope list_scope.

Lemma key_values_yget da db k : (forall v, key_value da k v <-> key_value db k v) -> yget k da = yget k db.
Proof.
  intros H. destruct (yget k da) as [v|] eqn:Ea.
  - symmetry. apply yget_iff, H, yget_iff, Ea.
  - destruct (yget k db) as [v|] eqn:Eb; [|reflexivity]. apply yget_iff, H, yget_iff in Eb. congruence.
Qed.
Lemma csv_alike_table w w' p : csv_alike (w_csv w p) (w_csv w' p) -> table_from_csv_path w p = table_from_csv_path w' p.
Proof.
  unfold table_from_csv_path. intros [E|(ra & rb & Ea & Eb & Ha & Hb & T)]; [rewrite E; reflexivity|].
  rewrite Ea, Eb. destruct ra as [|[]]; destruct rb as [|[]]; cbn [hd_error tl] in *; try congruence; subst; reflexivity.
Qed.
Lemma yaml_alike_table w w' p : yaml_alike (w_yaml w p) (w_yaml w' p) -> table_from_yaml_path w p = table_from_yaml_path w' p.
Proof.
  unfold table_from_yaml_path, read_yaml. intros [E|(da & db & Ea & Eb & H)]; [rewrite E; reflexivity|].
  rewrite Ea, Eb. cbn [bind]. unfold yaml_items. rewrite (key_values_yget da db (lit "items")); [reflexivity|]. intros v. apply H.
Qed.
Lemma yaml_alike_modifiers o w w' p : yaml_alike (w_yaml w p) (w_yaml w' p) ->
  modifiers_from_yaml_path o w p = modifiers_from_yaml_path o w' p.
Proof.
  unfold modifiers_from_yaml_path, read_yaml. intros [E|(da & db & Ea & Eb & H)]; [rewrite E; reflexivity|].
  rewrite Ea, Eb. cbn [bind]. unfold modifiers_of_yaml. rewrite (key_values_yget da db (lit "modifiers")); [reflexivity|]. intros v. apply H.
Qed.
Lemma file_alike_load o w w' p : file_alike w w' p -> load_file_with_ext o w p = load_file_with_ext o w' p.
Proof.
  intros [C Y]. unfold load_file_with_ext. destruct (ext_from_path p) as [ext| |] eqn:E; cbn [bind]; [|reflexivity..].
  destruct (ext_ok_cases p ext E) as [[-> X]|[-> X]]; unfold load_items_to_character_converter; cbn [load_modifiers].
  - rewrite (csv_alike_table w w' p (C X)). reflexivity.
  - rewrite (yaml_alike_table w w' p (Y X)), (yaml_alike_modifiers o w w' p (Y X)). reflexivity.
Qed.
Lemma load_files_alike o w w' ps : Forall (file_alike w w') ps -> forall i, load_files o w i ps = load_files o w' i ps.
Proof.
  induction 1 as [|p ps H _ IH]; intros i; cbn [load_files]; [reflexivity|]. rewrite (file_alike_load _ w w' p H), IH. reflexivity.
Qed.
Lemma filter_alike w w' l : Forall (place_alike w w') l ->
  filter (w_is_file w) l = filter (w_is_file w') l /\ Forall (file_alike w w') (filter (w_is_file w) l).
Proof.
  induction 1 as [|p l [E F] _ [IH1 IH2]]; cbn [filter]; [split; constructor|].
  rewrite <- E. destruct (w_is_file w p); [|split; assumption]. split; [rewrite IH1; reflexivity|constructor; [apply F; reflexivity|exact IH2]].
Qed.

(** A configuration file counts only by the items and modifiers it describes. *)
Theorem C111_file : forall o w w' p, file_alike w w' p -> from_config_file o w p = from_config_file o w' p.
Proof. exact file_alike_load. Qed.
Print Assumptions C111_file.
(** The configuration depends on nothing but the places listed in C45 and C46. *)
Theorem C111_load : forall o w w', configured_alike w w' -> load_rc o w = load_rc o w'.
Proof.
  intros o w w' [(s & E & E' & P)|(U & U' & C & F)].
  - unfold load_rc, configuration_load, file_paths, file_path_from_env. rewrite E, E'.
    destruct P as [I A]. unfold valid_file_path. rewrite <- I. destruct (w_is_file w s); cbn [negb]; [|reflexivity].
    specialize (A eq_refl).
    destruct (unwrap (extension s)) as [e| |]; cbn [bind]; [|reflexivity..].
    destruct (unwrap (to_str e)) as [x| |]; cbn [bind]; [|reflexivity..].
    destruct (forallb _ all_extensions); cbn [bind]; [reflexivity|].
    rewrite (load_files_alike o w w' [s]) by (constructor; [exact A|constructor]). reflexivity.
  - rewrite (load_rc_files o w U), (load_rc_files o w' U'). unfold found. rewrite <- C.
    destruct (filter_alike w w' _ F) as [<- G]. rewrite (load_files_alike o w w' _ G). reflexivity.
Qed.
Print Assumptions C111_load.
(** So does the command line tool. *)
Theorem C111_process : forall o w w' args stdin, configured_alike w w' -> process o w args stdin = process o w' args stdin.
Proof.
  intros o w w' args stdin H. unfold process. destruct (parse_args args) as [op|]; [|reflexivity].
  unfold cli_main. rewrite (C111_load (sub o 0) w w' H). reflexivity.
Qed.
Print Assumptions C111_process.
Definition broken_at (w : world) (p : path) : world :=
  World (fun q => if str_eqb q p then true else w_is_file w q) (fun q => if str_eqb q p then None else w_csv w q)
        (fun q => if str_eqb q p then None else w_yaml w q) (w_canonicalize w) (w_env w) (w_home w) (w_cwd w).
Lemma broken_only w p : only_at p w (broken_at w p).
Proof.
  split; [reflexivity|]. split; [reflexivity|]. split; [reflexivity|]. split; [reflexivity|].
  intros q N. cbn [broken_at w_is_file w_csv w_yaml]. destruct (str_eqb q p) eqn:E; [apply str_eqb_eq in E; contradiction|]. auto.
Qed.
Lemma broken_load o w p c : from_config_file o (broken_at w p) p <> Ok c.
Proof.
  intros H. change (load_file_with_ext o (broken_at w p) p = Ok c) in H. unfold load_file_with_ext in H.
  destruct (ext_from_path p) as [[]| |]; cbn [bind] in H; [| |discriminate..];
    unfold load_items_to_character_converter, table_from_csv_path, table_from_yaml_path, read_yaml in H; cbn [broken_at w_csv w_yaml] in H;
    rewrite str_eqb_refl in H; discriminate.
Qed.
(** Each of these places matters: a file there that cannot be read makes the load fail. *)
Theorem C111_each_place : forall o w p, (w_env w = EnvUnicode p /\ unicode p) \/ (chanomarc_unset w /\ In p (candidates (w_home w) (w_cwd w))) ->
  exists w', only_at p w w' /\ forall c, load_rc o w' <> Ok c.
Proof.
  intros o w p H. exists (broken_at w p). split; [apply broken_only|]. intros c L.
  destruct H as [[E U]|[U I]].
  - pose proof (C45_chanomarc o (broken_at w p) p E U) as (_ & A & B & D).
    assert (F : w_is_file (broken_at w p) p = true) by (cbn [broken_at w_is_file]; rewrite str_eqb_refl; reflexivity).
    unfold load_rc, configuration_load, file_paths, file_path_from_env in L.
    replace (w_env (broken_at w p)) with (EnvUnicode p) in L by (symmetry; exact E).
    unfold valid_file_path in L. rewrite F in L. cbn [negb] in L.
    destruct (unwrap (extension p)) as [e| |]; cbn [bind] in L; [|discriminate..].
    destruct (unwrap (to_str e)) as [x| |]; cbn [bind] in L; [|discriminate..].
    destruct (forallb _ all_extensions); cbn [bind] in L; [discriminate|]. rewrite load_one in L.
    destruct (from_config_file (sub o 0) (broken_at w p) p) as [c'| |] eqn:X; cbn [bind] in L; [|discriminate..].
    exact (broken_load _ _ _ _ X).
  - assert (U' : chanomarc_unset (broken_at w p)) by exact U.
    apply (C46_ok o (broken_at w p) c U') in L as (cs & F & _).
    assert (J : In p (found (broken_at w p))).
    { unfold found. apply filter_In. split; [exact I|]. cbn [broken_at w_is_file]. rewrite str_eqb_refl. reflexivity. }
    clear -F J. induction F as [|q c' ps cs' H F IH]; [destruct J|]. destruct J as [->|J]; [exact (broken_load _ _ _ _ H)|exact (IH J)].
Qed.
Print Assumptions C111_each_place.
(** Two worlds that differ in the header of a CSV file, in a YAML key that is not read, in a file with the name [chanomarc.yml] and in what the CSV file would be as YAML. *)
Definition frame_world (header extra : string) (other : bool) : world :=
  World (fun p => existsb (str_eqb p) (map lit (["/h/chanomarc.csv"; "/d/.chanomarc.yaml"] ++ if other then ["/d/chanomarc.yml"; "/e/chanomarc.csv"] else [])))
        (fun p => Some [fields [header]; fields ["a"; "b"]])
        (fun p => if str_eqb p (lit "/d/.chanomarc.yaml")
                  then Some (Some (YMap [(ystr extra, ystr header); (ystr "items", YMap [(ystr "d", ystr "b")])]))
                  else if other then None else Some None)
        (fun p => Some p) EnvAbsent (Some (lit "/h")) (Some (lit "/d")).
Lemma extra_key k extra h v : lit k <> lit extra -> forall r, key_value (YMap ((ystr extra, ystr h) :: r)) (lit k) v <-> key_value (YMap r) (lit k) v.
Proof.
  intros N r. rewrite <- !yget_iff. cbn [yget lookup_str ystr].
  destruct (str_eqb (lit k) (lit extra)) eqn:E; [apply str_eqb_eq in E; contradiction|]. reflexivity.
Qed.
Lemma frame_alike : configured_alike (frame_world "h" "version" false) (frame_world "from" "author" true).
Proof.
  right. split; [intros s; discriminate|]. split; [intros s; discriminate|]. split; [reflexivity|].
  apply Forall_forall. intros p I. split.
  - revert p I. apply Forall_forall. repeat (constructor; [vm_compute; reflexivity|]). constructor.
  - intros F. split.
    + intros _. right. exists [fields ["h"]; fields ["a"; "b"]], [fields ["from"]; fields ["a"; "b"]]. repeat split; discriminate.
    + intros Y. cbn [frame_world w_is_file] in F. apply existsb_exists in F as (x & X & E). apply str_eqb_eq in E. subst x.
      destruct X as [<-|[<-|[]]].
      * exfalso. destruct Y as [Y|Y]; revert Y; rewrite <- extension_iff; vm_compute; discriminate.
      * right. do 2 eexists. split; [reflexivity|]. split; [reflexivity|]. intros v.
        split; rewrite !extra_key by (vm_compute; discriminate); reflexivity.
Qed.
Example C111_case :
  configured_alike (frame_world "h" "version" false) (frame_world "from" "author" true) /\
  load_rc no_order (frame_world "h" "version" false) = Ok [MConv [(97, 98)]; MConv [(98, 100)]]%N /\
  load_rc no_order (frame_world "from" "author" true) = Ok [MConv [(97, 98)]; MConv [(98, 100)]]%N /\
  load_rc no_order (frame_world "h" "modifiers" false) = Panic.
Proof. split; [exact frame_alike|]. repeat split. Qed.
