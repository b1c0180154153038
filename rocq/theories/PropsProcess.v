(** Properties C73 (arguments of the command line tool) and C74 (the tool as a process). *)
From Coq Require Import String.
From Verif Require Import Base BaseFacts Utf8 StrOps Corr Table Charset Neologdn ModifierKind PathModel Yaml File ChanomaModel
  Configuration Cli Csv Process CharSpec Spec NeoSpec FileSpec PathSpec ConfigSpec BinSpec ProcessSpec BinProps CsvProps ProcessProps PropsConverter PropsPipeline PropsFile PropsConfig PropsBin.
Local Open Scope string_scope.
Local Open Scope list_scope.

(** ** C73 *)
Theorem C73_accepted_iff : forall args op, parse_args args = Some op <-> accepted args op.
Proof. exact parse_args_iff. Qed.
Print Assumptions C73_accepted_iff.
(** Without [--], the order of the arguments is irrelevant. *)
Theorem C73_order_irrelevant : forall args args', Permutation args args' -> ~ In (lit "--") args -> parse_args args = parse_args args'.
Proof.
  intros args args' P N. assert (N' : ~ In (lit "--") args') by (intros I; apply N; eapply Permutation_in; [symmetry; exact P|exact I]).
  destruct (parse_args args) as [op|] eqn:E.
  - symmetry. apply parse_args_iff. apply parse_args_iff in E. exact (accepted_perm args args' op P N E).
  - destruct (parse_args args') as [op|] eqn:E'; [|reflexivity]. apply parse_args_iff in E'.
    apply (accepted_perm args' args op (Permutation_sym P) N') in E'. apply parse_args_iff in E'. congruence.
Qed.
Print Assumptions C73_order_irrelevant.
(** Every text can be given after [--]. *)
Theorem C73_any_text_escaped : forall args op t, ~ In (lit "--") args -> parse_args args = Some op -> o_input op = None ->
  parse_args (args ++ [lit "--"; t]) = Some (Opts (Some t) (o_debug op) (o_preset op) (o_neologdn op)).
Proof.
  intros args op t N H I. apply parse_args_iff. apply parse_args_iff in H as (fs & ts & A & D & J & F).
  assert (ts = []) by (destruct ts as [|t' [|]]; [reflexivity|congruence|contradiction]). subst ts.
  exists fs, [t]. split; [|split; [exact D|split; [reflexivity|exact F]]].
  clear D J F I. remember [] as ts eqn:Et in A. revert Et N.
  induction A as [|a gs r gs' ts F A IH|a r gs ts P A IH|r]; intros Et N; [apply arg_escape| |discriminate|destruct N; left; reflexivity].
  cbn [app]. apply arg_flags; [exact F|]. apply IH; [exact Et|]. intros I. apply N. right. exact I.
Qed.
Print Assumptions C73_any_text_escaped.
(** A text alone is taken as the text exactly when it is a hyphen or does not start with one. *)
Theorem C73_text_alone_iff : forall t, parse_args [t] = Some (Opts (Some t) false false false) <-> plain t.
Proof.
  intros t. rewrite parse_args_iff. split.
  - intros (fs & ts & A & _ & I & _). inversion A as [|a gs r gs' ts' F A'|a r gs ts' P A'|r]; subst; [|exact P|discriminate I].
    inversion A'; subst. discriminate I.
  - intros P. exists [], [t]. split; [apply arg_text; [exact P|constructor]|]. split; [constructor|]. split; [reflexivity|].
    cbn. repeat split; try discriminate; contradiction.
Qed.
Print Assumptions C73_text_alone_iff.
(** The expectation that any text can be given as the argument is false: a text starting with a hyphen ends the tool
    or is taken for a flag. *)
Theorem C73_hyphen_text_refuted :
  (exists t, t <> lit "--" /\ parse_args [t] = None) /\
  (exists t, t <> [] /\ exists op, parse_args [t] = Some op /\ o_input op = None /\ o_preset op = true).
Proof.
  split; [exists (lit "-5"); split; [discriminate|reflexivity]|]. exists (lit "-p"). split; [discriminate|]. eexists. split; [reflexivity|]. split; reflexivity.
Qed.
Print Assumptions C73_hyphen_text_refuted.
Example C73_case :
  parse_args [lit "-pn"; lit "a b"; lit "--debug"] = Some (Opts (Some (lit "a b")) true true true) /\
  parse_args [lit "-n"; lit "--"; lit "--preset"] = Some (Opts (Some (lit "--preset")) false false true) /\
  parse_args [lit "-p"; lit "--preset"] = None /\ parse_args [lit "a"; lit "b"] = None /\ parse_args [lit "-h"] = None /\
  parse_args [lit "--presets"] = None /\ parse_args [lit "-"; lit "-d"] = Some (Opts (Some (lit "-")) true false false) /\
  parse_args [] = Some (Opts None false false false) /\ parse_args [[]] = Some (Opts (Some []) false false false) /\
  accepted [lit "-pn"; lit "a"] (Opts (Some (lit "a")) false true true).
Proof. repeat (split; [reflexivity|]). apply parse_args_iff. reflexivity. Qed.

(** ** C74 *)
(** The text the process works on, from its arguments and the bytes on standard input. *)
Definition process_text (op : opts) (stdin : file) (text : str) : Prop :=
  o_input op = Some text \/ (o_input op = None /\ valid_str text /\ stdin_line stdin (encode text)).
Lemma process_text_iff op f text : process_text op f text <-> input_text op (stdin_text f) text.
Proof.
  unfold process_text, input_text. split; (intros [H|(I & H)]; [left; exact H|right; split; [exact I|]]).
  - destruct H as [V L]. exact (stdin_line_text f text V L).
  - destruct H as (s & E & L). destruct (stdin_text_some f s E) as (t & L' & V & Q). rewrite (first_line_unique s text t L L'). auto.
Qed.
Theorem C74_output_iff : forall w args stdin b, (forall s, w_env w = EnvUnicode s -> unicode s) ->
  ((exists o, process o w args stdin = Output b) <->
   exists op cfg text x y out, accepted args op /\ (forall o, load_rc o w = Ok cfg) /\ process_text op stdin text /\
     result cfg text x /\ if_asked (o_preset op) (pointwise preset_rel) x y /\ if_asked (o_neologdn op) neologdn_result y out /\
     (o_debug op = true -> cfg <> [] \/ o_preset op = true \/ o_neologdn op = true) /\ b = encode out ++ [0x0A%N]).
Proof.
  intros w args stdin b U. split.
  - intros (o & H). unfold process in H. destruct (parse_args args) as [op|] eqn:E; [|discriminate].
    destruct (cli_main o w op (stdin_text stdin)) as [[out|]| |] eqn:M; try discriminate. injection H as <-.
    destruct (proj1 (C51_printed_iff w op (stdin_text stdin) out U) (ex_intro _ o M)) as (cfg & text & x & y & L & T & R1 & R2 & R3 & D).
    exists op, cfg, text, x, y, out. split; [apply parse_args_iff, E|]. split; [exact L|]. split; [apply process_text_iff, T|].
    split; [exact R1|]. split; [exact R2|]. split; [exact R3|]. split; [exact D|reflexivity].
  - intros (op & cfg & text & x & y & out & A & L & T & R1 & R2 & R3 & D & ->).
    destruct (proj2 (C51_printed_iff w op (stdin_text stdin) out U)) as (o & M).
    { exists cfg, text, x, y. split; [exact L|]. split; [apply process_text_iff, T|]. auto. }
    exists o. unfold process. rewrite (proj2 (parse_args_iff args op) A), M. reflexivity.
Qed.
Print Assumptions C74_output_iff.
Theorem C74_other_results : forall o w args stdin, (forall s, w_env w = EnvUnicode s -> unicode s) ->
  (process o w args stdin = NotRun <-> forall op, ~ accepted args op) /\
  (process o w args stdin = ReadFailed <->
   exists op cfg, accepted args op /\ load_rc o w = Ok cfg /\ o_input op = None /\ forall text, valid_str text -> ~ stdin_line stdin (encode text)) /\
  (process o w args stdin = Panicked <->
   exists op, accepted args op /\
   ((forall cfg, load_rc o w <> Ok cfg) \/
    (load_rc o w = Ok [] /\ o_debug op = true /\ o_preset op = false /\ o_neologdn op = false /\ exists text, process_text op stdin text))).
Proof.
  intros o w args stdin U. unfold process. destruct (parse_args args) as [op|] eqn:E.
  - pose proof (proj1 (parse_args_iff args op) E) as A.
    assert (Q : forall op', accepted args op' -> op' = op) by (intros op' H; apply parse_args_iff in H; congruence).
    assert (S : stdin_text stdin = None <-> forall text, valid_str text -> ~ stdin_line stdin (encode text)).
    { split.
      - intros H text V L. destruct (stdin_line_text _ _ V L) as (s & H' & _). congruence.
      - intros H. destruct (stdin_text stdin) as [s|] eqn:Es; [|reflexivity]. destruct (stdin_text_some _ _ Es) as (t & _ & V & L). destruct (H t V L). }
    assert (S' : (o_input op <> None \/ stdin_text stdin <> None) <-> exists text, process_text op stdin text).
    { split.
      - intros H. destruct (input_text_cases op (stdin_text stdin)) as [(t & T)|(E1 & E2 & _)]; [exists t; apply process_text_iff, T|destruct H; contradiction].
      - intros (t & T). apply process_text_iff in T as [H|(_ & s & H & _)]; [left|right]; congruence. }
    split; [|split].
    + split; [|intros H; destruct (H op A)]. destruct (cli_main o w op (stdin_text stdin)) as [[]| |]; discriminate.
    + assert (R : cli_main o w op (stdin_text stdin) = Ok StdinError <->
        exists op cfg, accepted args op /\ load_rc o w = Ok cfg /\ o_input op = None /\ forall text, valid_str text -> ~ stdin_line stdin (encode text)).
      { rewrite (C51_stdin_error_iff o w op (stdin_text stdin) U), S. split.
        - intros ((cfg & L) & I & N). exists op, cfg. auto.
        - intros (op' & cfg & A' & L & I & N). rewrite (Q op' A') in I. eauto. }
      rewrite <- R. destruct (cli_main o w op (stdin_text stdin)) as [[]| |]; split; congruence.
    + assert (R : cli_main o w op (stdin_text stdin) = Panic <-> exists op, accepted args op /\
        ((forall cfg, load_rc o w <> Ok cfg) \/
         (load_rc o w = Ok [] /\ o_debug op = true /\ o_preset op = false /\ o_neologdn op = false /\ exists text, process_text op stdin text))).
      { rewrite (C51_panics_iff o w op (stdin_text stdin) U), S'. split; [intros H; exists op; auto|]. intros (op' & A' & H). rewrite (Q op' A') in H. exact H. }
      rewrite <- R. pose proof (fun e => C51_never_error o w op (stdin_text stdin) e U) as Never.
      destruct (cli_main o w op (stdin_text stdin)) as [[]| |]; split; try congruence.
  - assert (N : forall op, ~ accepted args op) by (intros op H; apply parse_args_iff in H; congruence).
    split; [split; [auto|reflexivity]|]. split; (split; [discriminate|]).
    + intros (op & _ & A & _). destruct (N op A).
    + intros (op & A & _). destruct (N op A).
Qed.
Print Assumptions C74_other_results.
(** Only the first line of standard input matters, and not even that when a text is given. *)
Theorem C74_rest_ignored : forall o w args line f f', stdin_line f line -> stdin_line f' line -> process o w args f = process o w args f'.
Proof.
  intros o w args line f f' L L'. unfold process. destruct (parse_args args) as [op|]; [|reflexivity].
  replace (cli_main o w op (stdin_text f)) with (cli_main o w op (stdin_text f')); [reflexivity|]. unfold cli_main.
  assert (Q : forall s s', stdin_text f = Some s -> stdin_text f' = Some s' ->
    trim_end_matches NEWLINE (read_line s) = trim_end_matches NEWLINE (read_line s')).
  { intros s s' E E'. destruct (stdin_text_some f s E) as (t & F & V & Lt). destruct (stdin_text_some f' s' E') as (t' & F' & V' & Lt').
    rewrite (first_line_unique s _ t (read_line_spec s) F), (first_line_unique s' _ t' (read_line_spec s') F').
    apply encode_inj'; [exact V|exact V'|]. transitivity line; [|symmetry]; eapply stdin_line_unique; eassumption. }
  assert (Q' : stdin_text f = None <-> stdin_text f' = None).
  { assert (W : forall g g', stdin_line g line -> stdin_line g' line -> stdin_text g = None -> stdin_text g' = None).
    { intros g g' G G' H. destruct (stdin_text g') as [s|] eqn:Es; [|reflexivity]. destruct (stdin_text_some g' s Es) as (t & _ & V & Lt).
      rewrite <- (stdin_line_unique g' _ _ Lt G') in G.
      destruct (stdin_line_text g t V G) as (s' & H' & _). congruence. }
    split; apply W; assumption. }
  destruct (stdin_text f) as [s|] eqn:E, (stdin_text f') as [s'|] eqn:E'.
  - rewrite (Q s s' eq_refl eq_refl). reflexivity.
  - discriminate (proj2 Q' eq_refl).
  - discriminate (proj1 Q' eq_refl).
  - reflexivity.
Qed.
Print Assumptions C74_rest_ignored.
Theorem C74_argument_ignores_stdin : forall o w args op f f', accepted args op -> o_input op <> None -> process o w args f = process o w args f'.
Proof.
  intros o w args op f f' A I. unfold process. rewrite (proj2 (parse_args_iff args op) A). unfold cli_main.
  destruct (o_input op); [reflexivity|contradiction].
Qed.
Print Assumptions C74_argument_ignores_stdin.
Example C74_case :
  let w := search_world [] "/h" "/d" in
  process no_order w [lit "-p"] (FileFails ([0xEF; 0xBC; 0xA2; 0x0A; 0xFF]%N)) = Output [0x42; 0x0A]%N /\
  process no_order w [lit "-p"] (FileBytes ([0xFF; 0x0A]%N)) = ReadFailed /\
  process no_order w [] (FileFails [0x61]%N) = ReadFailed /\
  process no_order w [lit "-d"] (FileBytes [0x61]%N) = Panicked /\
  process no_order w [lit "-x"] (FileBytes [0x61]%N) = NotRun /\
  stdin_line (FileFails ([0xEF; 0xBC; 0xA2; 0x0A; 0xFF]%N)) (encode [0xFF22]%N).
Proof.
  repeat (split; [vm_compute; reflexivity|]). split; [vm_compute; intros H; repeat destruct H as [H|H]; try discriminate H; destruct H|].
  left. exists [0xFF]%N. right. reflexivity.
Qed.
