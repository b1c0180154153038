(** Property C80: the debug log of the command line tool. *)
From Coq Require Import String.
From Verif Require Import Base BaseFacts Utf8 StrOps Position Corr Table Charset Neologdn ModifierKind PathModel Yaml File ChanomaModel
  Configuration Cli Csv Process Log CharSpec Spec NeoSpec CharsetFacts FileSpec PathSpec ConfigSpec BinSpec ProcessSpec PathProps YamlProps ConfigProps BinProps
  CsvProps ProcessProps PropsConverter PropsNeo PropsPipeline PropsFile PropsConfig PropsBin PropsProcess.
Local Open Scope string_scope.
Local Open Scope list_scope.

(** ** Specification *)
(** The line about CHANOMARC, written when it is set, whether or not the path is good. *)
Definition env_lines (w : world) (ex : path -> bool) (l : list event) : Prop :=
  (exists s, w_env w = EnvUnicode s /\ l = [LEnv s (ex s)]) \/ (chanomarc_unset w /\ l = []).
(** The line about the files to be loaded. *)
Definition files_lines (w : world) (l : list event) : Prop :=
  (exists s, w_env w = EnvUnicode s /\ w_is_file w s = true /\ (has_extension s (lit "csv") \/ has_extension s (lit "yaml")) /\ l = [LFiles [s]]) \/
  (exists s, w_env w = EnvUnicode s /\ (w_is_file w s = false \/ ~ (has_extension s (lit "csv") \/ has_extension s (lit "yaml"))) /\ l = []) \/
  (chanomarc_unset w /\ l = [LFiles (filter (w_is_file w) (candidates (w_home w) (w_cwd w)))]).
(** The modifiers the flags ask for. *)
Definition flag_modifiers (op : opts) (ms : chanoma) : Prop :=
  exists p n, (if o_preset op then exists o, chanoma_preset o = Ok p else p = []) /\
    (if o_neologdn op then exists o, chanoma_neologdn o = Ok n else n = []) /\ ms = p ++ n.

(** ** Lemmas *)
Lemma then_snd {A B} (x : logged A) (k : A -> logged B) : snd (then_ x k) = bind (snd x) (fun a => snd (k a)).
Proof. unfold then_. destruct (snd x); reflexivity. Qed.
Lemma bind_ext {A B} (x : outcome A) (f g : A -> outcome B) : (forall a, f a = g a) -> bind x f = bind x g.
Proof. intros H. destruct x; cbn [bind]; [apply H|reflexivity..]. Qed.
Lemma records_snd dbg o c : forall i s, snd (normalize_records_logged dbg o i c s) = normalize_records o i c s.
Proof.
  induction c as [|m c IH]; intros i s; [reflexivity|]. cbn [normalize_records_logged normalize_records]. rewrite then_snd. cbn [quiet snd].
  apply bind_ext. intros r. rewrite !then_snd. cbn [debug snd bind]. rewrite IH. reflexivity.
Qed.
Lemma normalize_snd dbg o c s : snd (normalize_logged dbg o c s) = normalize dbg o c s.
Proof. unfold normalize_logged, normalize. destruct dbg; [|reflexivity]. cbn [negb]. rewrite then_snd, records_snd. reflexivity. Qed.
Lemma load_snd dbg ex o w : snd (load_rc_logged dbg ex o w) = load_rc o w.
Proof.
  unfold load_rc_logged, load_rc, configuration_load. rewrite then_snd.
  assert (E : snd (file_paths_logged dbg ex w) = file_paths w).
  { unfold file_paths_logged, file_paths. destruct (file_path_from_env w); [rewrite then_snd|]; reflexivity. }
  rewrite E. apply bind_ext. intros ps. rewrite then_snd. cbn [debug snd bind]. destruct ps; reflexivity.
Qed.
Lemma cli_snd o w ex op stdin : snd (cli_main_logged o w ex op stdin) = cli_main o w op stdin.
Proof.
  unfold cli_main_logged, cli_main. pose proof (load_snd (o_debug op) ex (sub o 0) w) as H.
  destruct (load_rc_logged (o_debug op) ex (sub o 0) w) as [l r]. cbn [snd] in H. subst r. rewrite then_snd. cbn [snd].
  destruct (load_rc (sub o 0) w) as [c| |]; cbn [bind]; [|reflexivity..]. rewrite then_snd. cbn [quiet snd]. apply bind_ext. intros c1. rewrite then_snd. cbn [quiet snd]. apply bind_ext. intros c2.
  destruct (o_input op); [rewrite then_snd, normalize_snd; reflexivity|]. destruct stdin; [rewrite then_snd, normalize_snd; reflexivity|reflexivity].
Qed.

Lemma records_fst o c : forall i s rs, normalize_records o i c s = Ok rs -> normalize_records_logged true o i c s = (map LRecord rs, Ok rs).
Proof.
  induction c as [|m c IH]; intros i s rs; cbn [normalize_records normalize_records_logged]; [intros E; injection E as <-; reflexivity|].
  intros E. apply bind_ok in E as (r & E1 & E). apply bind_ok in E as (rest & E2 & E). injection E as <-.
  rewrite E1. unfold then_ at 1. cbn [quiet snd fst app]. unfold then_ at 1. cbn [debug snd fst]. rewrite (IH _ _ _ E2). unfold then_. cbn [debug snd fst quiet map app]. rewrite app_nil_r. reflexivity.
Qed.
Lemma normalize_fst o c s rs : normalize_with_positions o c s = Ok rs -> fst (normalize_logged true o c s) = map LRecord rs.
Proof.
  intros H. unfold normalize_logged. cbn [negb]. rewrite (records_fst o c 0 s rs H). unfold then_. cbn [snd fst quiet]. rewrite app_nil_r. reflexivity.
Qed.
Lemma normalize_quiet o c s : fst (normalize_logged false o c s) = [].
Proof. reflexivity. Qed.

Lemma csv_or_yaml_neither s e : has_extension s e -> e <> lit "csv" -> e <> lit "yaml" -> ~ (has_extension s (lit "csv") \/ has_extension s (lit "yaml")).
Proof. intros X N1 N2 [H|H]; apply extension_iff in H; apply extension_iff in X; congruence. Qed.
Lemma load_fst ex o w : good_env w -> exists e f, env_lines w ex e /\ files_lines w f /\ fst (load_rc_logged true ex o w) = e ++ f.
Proof.
  intros U. unfold load_rc_logged, file_paths_logged. unfold file_path_from_env. destruct (w_env w) as [|q|s] eqn:E.
  - exists [], [LFiles (found w)]. assert (N : chanomarc_unset w) by (intros s; congruence).
    split; [right; auto|]. split; [right; right; auto|]. unfold then_ at 1. cbn [quiet snd fst]. unfold exists_file_paths. rewrite dirs_candidates.
    fold (found w). destruct (found w); reflexivity.
  - exists [], [LFiles (found w)]. assert (N : chanomarc_unset w) by (intros s; congruence).
    split; [right; auto|]. split; [right; right; auto|]. unfold then_ at 1. cbn [quiet snd fst]. unfold exists_file_paths. rewrite dirs_candidates.
    fold (found w). destruct (found w); reflexivity.
  - exists [LEnv s (ex s)].
    assert (V : (w_is_file w s = true /\ (has_extension s (lit "csv") \/ has_extension s (lit "yaml")) /\ valid_file_path w s = Ok [s]) \/
                ((w_is_file w s = false \/ ~ (has_extension s (lit "csv") \/ has_extension s (lit "yaml"))) /\ forall l, valid_file_path w s <> Ok l)).
    { specialize (U s E). unfold valid_file_path. destruct (w_is_file w s); cbn [negb]; [|right; split; [left; reflexivity|discriminate]].
      destruct (extension s) as [e|] eqn:X; cbn [unwrap bind].
      2: { right. split; [right; intros [H|H]; apply extension_iff in H; congruence|discriminate]. }
      apply extension_iff in X. assert (T : to_str e = Some e).
      { pose proof X as (stem & _ & _ & dir & t & -> & _). apply to_str_iff. split; [|reflexivity].
        unfold unicode in *. rewrite Forall_app in U. destruct U as [_ U]. rewrite Forall_app in U. destruct U as [U _].
        rewrite Forall_app in U. destruct U as [_ U]. rewrite Forall_app in U. apply U. }
      rewrite T. cbn [unwrap bind all_extensions forallb ext_to_string].
      destruct (str_eqb_spec (lit "csv") e) as [<-|N1]; [left; auto|]. destruct (str_eqb_spec (lit "yaml") e) as [<-|N2]; [left; auto|].
      right. split; [right; apply (csv_or_yaml_neither s e X); congruence|discriminate]. }
    destruct V as [(F & X & V)|(X & V)].
    + exists [LFiles [s]]. split; [left; eauto|]. split; [left; exists s; auto|]. rewrite V. reflexivity.
    + exists []. split; [left; eauto|]. split; [right; left; exists s; auto|].
      destruct (valid_file_path w s) as [l|e|] eqn:Q; [destruct (V l eq_refl)|reflexivity..].
Qed.
Lemma load_quiet ex o w : fst (load_rc_logged false ex o w) = [].
Proof.
  unfold load_rc_logged, file_paths_logged. destruct (file_path_from_env w); unfold then_ at 1.
  - unfold then_ at 1 2. cbn [debug quiet snd fst app]. destruct (valid_file_path w p) as [l| |]; [destruct l|..]; reflexivity.
  - cbn [quiet snd fst]. destruct (exists_file_paths w (auto_load_dirs w) auto_load_paths_from_dir); reflexivity.
Qed.
Lemma then_fst_ok {A B} (x : logged A) (k : A -> logged B) a : snd x = Ok a -> fst (then_ x k) = fst x ++ fst (k a).
Proof. intros H. unfold then_. rewrite H. reflexivity. Qed.
Lemma cli_fst o w ex op stdin cfg : load_rc o w = Ok cfg ->
  fst (cli_main_logged o w ex op stdin) = fst (load_rc_logged (o_debug op) ex (sub o 0) w) ++
  match o_input op, stdin with
  | None, None => []
  | Some t, _ => fst (normalize_logged (o_debug op) (sub o 3) (cli_modifiers op cfg) t)
  | None, Some s => fst (normalize_logged (o_debug op) (sub o 3) (cli_modifiers op cfg) (trim_end_matches NEWLINE (read_line s)))
  end.
Proof.
  intros H. unfold cli_main_logged. pose proof (load_snd (o_debug op) ex (sub o 0) w) as L. rewrite (load_rc_order (sub o 0) o), H in L.
  destruct (load_rc_logged (o_debug op) ex (sub o 0) w) as [l r]. cbn [snd fst] in *. subst r.
  rewrite (then_fst_ok _ _ cfg) by reflexivity. cbn [fst]. f_equal.
  assert (E1 : (if o_preset op then use_preset (sub o 1) cfg else Ok cfg) = Ok (cfg ++ asked (o_preset op) (MConv PRESET))).
  { destruct (o_preset op); cbn [asked]; [apply use_preset_eq|rewrite app_nil_r; reflexivity]. }
  rewrite (then_fst_ok _ _ (cfg ++ asked (o_preset op) (MConv PRESET))) by exact E1. cbn [quiet fst app].
  assert (E2 : (if o_neologdn op then use_neologdn (sub o 2) (cfg ++ asked (o_preset op) (MConv PRESET)) else Ok (cfg ++ asked (o_preset op) (MConv PRESET))) = Ok (cli_modifiers op cfg)).
  { unfold cli_modifiers. rewrite app_assoc. destruct (o_neologdn op); cbn [asked]; [apply use_neologdn_eq|rewrite app_nil_r; reflexivity]. }
  rewrite (then_fst_ok _ _ (cli_modifiers op cfg)) by exact E2. cbn [quiet fst app].
  assert (Q : forall t, fst (then_ (normalize_logged (o_debug op) (sub o 3) (cli_modifiers op cfg) t) (fun r : str => quiet (Ok (Printed r)))) =
                        fst (normalize_logged (o_debug op) (sub o 3) (cli_modifiers op cfg) t)).
  { intros t. unfold then_. destruct (snd (normalize_logged (o_debug op) (sub o 3) (cli_modifiers op cfg) t)); [|reflexivity..].
    cbn [quiet fst]. apply app_nil_r. }
  destruct (o_input op); [apply Q|]. destruct stdin; [apply Q|reflexivity].
Qed.
Lemma cli_fst_fail o w ex op stdin : (forall cfg, load_rc o w <> Ok cfg) ->
  fst (cli_main_logged o w ex op stdin) = fst (load_rc_logged (o_debug op) ex (sub o 0) w).
Proof.
  intros H. unfold cli_main_logged. pose proof (load_snd (o_debug op) ex (sub o 0) w) as L. rewrite (load_rc_order (sub o 0) o) in L.
  destruct (load_rc_logged (o_debug op) ex (sub o 0) w) as [l r]. cbn [snd fst] in *. subst r.
  destruct (load_rc o w) as [c| |]; [destruct (H c eq_refl)|reflexivity..].
Qed.
Lemma preset_mods (b : bool) (p : chanoma) : (if b then exists o, chanoma_preset o = Ok p else p = []) <-> p = asked b (MConv PRESET).
Proof.
  destruct b; cbn [asked]; [|reflexivity]. unfold chanoma_preset. split.
  - intros (o & H). rewrite all_characters_set_eq in H. cbn [bind] in H. apply Ok_inj in H. symmetry. exact H.
  - intros ->. exists no_order. rewrite all_characters_set_eq. reflexivity.
Qed.
Lemma neo_mods (b : bool) (p : chanoma) : (if b then exists o, chanoma_neologdn o = Ok p else p = []) <-> p = asked b (MNeo NEO).
Proof.
  destruct b; cbn [asked]; [|reflexivity]. unfold chanoma_neologdn. split.
  - intros (o & H). rewrite neologdn_new_eq in H. cbn [bind] in H. apply Ok_inj in H. symmetry. exact H.
  - intros ->. exists no_order. rewrite neologdn_new_eq. reflexivity.
Qed.
Lemma flag_modifiers_iff op ms : flag_modifiers op ms <-> ms = asked (o_preset op) (MConv PRESET) ++ asked (o_neologdn op) (MNeo NEO).
Proof.
  unfold flag_modifiers. split.
  - intros (p & n & P & N & ->). apply preset_mods in P. apply neo_mods in N. rewrite P, N. reflexivity.
  - intros ->. eexists. eexists. split; [apply preset_mods; reflexivity|]. split; [apply neo_mods; reflexivity|reflexivity].
Qed.
(** Any choice of the stages is possible. *)
Lemma stages_possible c : forall s rs, stages c s rs -> exists os : list sched, List.length os = List.length c /\
  forall o i, (forall k, k < List.length c -> sub o (i + k) = nth k os no_order) -> normalize_records o i c s = Ok rs.
Proof.
  induction c as [|m c IH]; intros s rs H; destruct rs as [|r rs]; cbn [stages] in H; try contradiction.
  - exists []. split; [reflexivity|]. reflexivity.
  - destruct H as (_ & _ & (o1 & E) & H). destruct (IH _ _ H) as (os & L & Q). exists (sub o1 0 :: os). split; [cbn; rewrite L; reflexivity|].
    intros o i A. cbn [normalize_records]. pose proof (A 0 (Nat.lt_0_succ _)) as A0. rewrite Nat.add_0_r in A0. cbn [nth] in A0. rewrite A0.
    unfold normalize_with_positions in E. cbn [normalize_records bind] in E. apply bind_ok in E as (r' & E & E'). injection E' as <-.
    rewrite E. cbn [bind]. rewrite (Q o (S i)); [reflexivity|]. intros k Hk. replace (S i + k) with (i + S k) by lia. apply (A (S k)). cbn [List.length]. lia.
Qed.
Lemma stages_run c s rs : stages c s rs -> exists o, normalize_with_positions o c s = Ok rs.
Proof.
  intros H. destruct (stages_possible c s rs H) as (os & L & Q). exists (fun p => match p with k :: r => nth k os no_order r | [] => [] end).
  apply Q. intros k Hk. reflexivity.
Qed.

(** ** C80 *)
(** Writing the log does not change what the tool does. *)
Theorem C80_result_unchanged : forall o w ex args stdin, snd (process_logged o w ex args stdin) = process o w args stdin.
Proof.
  intros o w ex args stdin. unfold process_logged, process. destruct (parse_args args) as [op|]; [|reflexivity].
  rewrite <- (cli_snd o w ex op (stdin_text stdin)). destruct (cli_main_logged o w ex op (stdin_text stdin)) as [l r]. reflexivity.
Qed.
Print Assumptions C80_result_unchanged.
(** Nothing is logged unless the debug flag is given. *)
Theorem C80_quiet : forall o w ex args stdin, (forall op, accepted args op -> o_debug op = false) -> fst (process_logged o w ex args stdin) = [].
Proof.
  intros o w ex args stdin N. unfold process_logged. destruct (parse_args args) as [op|] eqn:E; [|reflexivity].
  specialize (N op (proj1 (parse_args_iff args op) E)).
  assert (Q : fst (cli_main_logged o w ex op (stdin_text stdin)) = []).
  { destruct (load_rc o w) as [cfg| |] eqn:L; [|rewrite cli_fst_fail by congruence; rewrite N; apply load_quiet..].
    rewrite (cli_fst o w ex op _ cfg L), N, load_quiet. cbn [app].
    destruct (o_input op); [apply normalize_quiet|]. destruct (stdin_text stdin); [apply normalize_quiet|reflexivity]. }
  destruct (cli_main_logged o w ex op (stdin_text stdin)) as [l r]. exact Q.
Qed.
Print Assumptions C80_quiet.
(** With the flag: the line about CHANOMARC, the line about the files, one record per modifier. *)
Theorem C80_log_exact : forall o w ex args stdin op, (forall s, w_env w = EnvUnicode s -> unicode s) -> accepted args op -> o_debug op = true ->
  exists e f rs, fst (process_logged o w ex args stdin) = e ++ f ++ map LRecord rs /\ env_lines w ex e /\ files_lines w f /\
    ((exists cfg ms text, load_rc o w = Ok cfg /\ flag_modifiers op ms /\ process_text op stdin text /\ stages (cfg ++ ms) text rs) \/
     (rs = [] /\ ((forall cfg, load_rc o w <> Ok cfg) \/ forall text, ~ process_text op stdin text))).
Proof.
  intros o w ex args stdin op U A D. unfold process_logged. rewrite (proj2 (parse_args_iff args op) A).
  destruct (load_fst ex (sub o 0) w U) as (e & f & He & Hf & EF).
  assert (Q : exists rs, fst (cli_main_logged o w ex op (stdin_text stdin)) = e ++ f ++ map LRecord rs /\
    ((exists cfg ms text, load_rc o w = Ok cfg /\ flag_modifiers op ms /\ process_text op stdin text /\ stages (cfg ++ ms) text rs) \/
     (rs = [] /\ ((forall cfg, load_rc o w <> Ok cfg) \/ forall text, ~ process_text op stdin text)))).
  { destruct (load_rc o w) as [cfg| |] eqn:L.
    - rewrite (cli_fst o w ex op _ cfg L), D, EF, <- app_assoc.
      destruct (input_text_cases op (stdin_text stdin)) as [(text & T)|(E1 & E2 & E3)].
      + destruct (C31_lemma (sub o 3) (cli_modifiers op cfg) text (cli_modifiers_constructible op cfg (load_rc_constructible o w cfg U L))) as (rs & R & S & _).
        exists rs. split.
        * f_equal. f_equal. pose proof T as T'. apply input_text_eq in T'. destruct (o_input op); [subst; apply normalize_fst, R|].
          destruct (stdin_text stdin); [subst; apply normalize_fst, R|contradiction].
        * left. exists cfg, (asked (o_preset op) (MConv PRESET) ++ asked (o_neologdn op) (MNeo NEO)), text.
          split; [reflexivity|]. split; [apply flag_modifiers_iff; reflexivity|]. split; [apply process_text_iff, T|exact S].
      + exists []. rewrite E1, E2. split; [reflexivity|]. right. split; [reflexivity|]. right. intros text T. apply process_text_iff in T. exact (E3 text T).
    - exists []. rewrite cli_fst_fail by congruence. rewrite D, EF, app_nil_r. split; [reflexivity|]. right. split; [reflexivity|]. left. discriminate.
    - exists []. rewrite cli_fst_fail by congruence. rewrite D, EF, app_nil_r. split; [reflexivity|]. right. split; [reflexivity|]. left. discriminate. }
  destruct Q as (rs & Q1 & Q2). exists e, f, rs. split; [|auto]. destruct (cli_main_logged o w ex op (stdin_text stdin)) as [l r]. exact Q1.
Qed.
Print Assumptions C80_log_exact.
(** Every sequence of records the modifiers can produce one by one is the log of some run. *)
Theorem C80_every_log_possible : forall w ex args stdin op cfg ms text rs,
  (forall s, w_env w = EnvUnicode s -> unicode s) -> accepted args op -> o_debug op = true ->
  (exists o, load_rc o w = Ok cfg) -> flag_modifiers op ms -> process_text op stdin text -> stages (cfg ++ ms) text rs ->
  exists o e f, fst (process_logged o w ex args stdin) = e ++ f ++ map LRecord rs /\ env_lines w ex e /\ files_lines w f.
Proof.
  intros w ex args stdin op cfg ms text rs U A D (o0 & L) M T S. apply flag_modifiers_iff in M. subst ms.
  destruct (stages_run _ _ _ S) as (o3 & R). set (o := fun p => match p with 3 :: q => o3 q | _ => [] end).
  rewrite (load_rc_order o0 o) in L. destruct (load_fst ex (sub o 0) w U) as (e & f & He & Hf & EF). exists o, e, f. split; [|auto].
  unfold process_logged. rewrite (proj2 (parse_args_iff args op) A).
  assert (Q : fst (cli_main_logged o w ex op (stdin_text stdin)) = e ++ f ++ map LRecord rs).
  { rewrite (cli_fst o w ex op _ cfg L), D, EF, <- app_assoc. f_equal. f_equal. apply process_text_iff, input_text_eq in T.
    destruct (o_input op); [subst; apply normalize_fst, R|]. destruct (stdin_text stdin); [subst; apply normalize_fst, R|contradiction]. }
  destruct (cli_main_logged o w ex op (stdin_text stdin)) as [l r]. exact Q.
Qed.
Print Assumptions C80_every_log_possible.
(** The printed line is the text of the last record. *)
Theorem C80_last_record_printed : forall o w ex args stdin op b, (forall s, w_env w = EnvUnicode s -> unicode s) -> accepted args op -> o_debug op = true ->
  process o w args stdin = Output b ->
  exists l r, fst (process_logged o w ex args stdin) = l ++ [LRecord r] /\ b = encode (r_text r) ++ [0x0A%N].
Proof.
  intros o w ex args stdin op b U A D H. unfold process in H. unfold process_logged. rewrite (proj2 (parse_args_iff args op) A) in *.
  destruct (load_rc o w) as [cfg| |] eqn:L; [|rewrite (cli_fail o w op _) in H by congruence; discriminate..].
  destruct (input_text_cases op (stdin_text stdin)) as [(text & T)|(E1 & E2 & E3)]; [|rewrite (cli_eq o w op _ cfg L), E1, E2 in H; discriminate].
  destruct (C31_lemma (sub o 3) (cli_modifiers op cfg) text (cli_modifiers_constructible op cfg (load_rc_constructible o w cfg U L))) as (rs & R & S & _).
  rewrite (cli_text o w op _ cfg text L T), D in H. unfold normalize in H. cbn [negb] in H. rewrite R in H. cbn [bind] in H.
  assert (Q : fst (cli_main_logged o w ex op (stdin_text stdin)) = fst (load_rc_logged true ex (sub o 0) w) ++ map LRecord rs).
  { rewrite (cli_fst o w ex op _ cfg L), D. f_equal. apply input_text_eq in T. destruct (o_input op); [subst; apply normalize_fst, R|].
    destruct (stdin_text stdin); [subst; apply normalize_fst, R|contradiction]. }
  unfold records_text in H. destruct (rev rs) as [|r q] eqn:V; [discriminate|]. cbn [bind] in H. injection H as <-.
  assert (Ers : rs = rev q ++ [r]) by (rewrite <- (rev_involutive rs), V; reflexivity).
  exists (fst (load_rc_logged true ex (sub o 0) w) ++ map LRecord (rev q)), r. split; [|reflexivity].
  destruct (cli_main_logged o w ex op (stdin_text stdin)) as [l x]. cbn [fst] in *. rewrite Q, Ers, map_app, app_assoc. reflexivity.
Qed.
Print Assumptions C80_last_record_printed.
Definition ex_rc : world := search_world ["/h/chanomarc.csv"] "/h" "/d".
Example C80_case :
  process_logged no_order ex_rc (fun _ => true) [lit "-d"; lit "xa"] (FileBytes []) =
    ([LFiles [lit "/h/chanomarc.csv"]; LRecord (Record (MConv [(0x61, 0x62); (0x62, 0x63)]%N) (lit "xb") [Pos (lit "a") (lit "b") 1 1 1 1])], Output (lit "xb" ++ [0x0A]%N)) /\
  process_logged no_order ex_rc (fun _ => true) [lit "xa"] (FileBytes []) = ([], Output (lit "xb" ++ [0x0A]%N)) /\
  process_logged no_order (search_world [] "/h" "/d") (fun _ => true) [lit "-d"; lit "x"] (FileBytes []) = ([LFiles []], Panicked) /\
  process_logged no_order (rc_world "/rc.yml") (fun _ => true) [lit "-d"; lit "x"] (FileBytes []) = ([LEnv (lit "/rc.yml") true], Panicked) /\
  process_logged no_order (rc_world "/rc.yml") (fun _ => true) [lit "x"] (FileBytes []) = ([], Panicked).
Proof. repeat split; vm_compute; reflexivity. Qed.
