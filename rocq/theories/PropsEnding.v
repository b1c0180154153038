(** Property C89: how the tools end. *)
From Coq Require Import String.
From Verif Require Import Base BaseFacts Utf8 StrOps Corr Table Charset Neologdn ModifierKind PathModel Yaml File ChanomaModel
  Configuration Cli Csv Process OutputTool Ending CharSpec Spec NeoSpec FileSpec PathSpec ConfigSpec BinSpec ProcessSpec BinProps CsvProps ProcessProps PropsConverter PropsPipeline PropsFile PropsConfig PropsBin
  PropsProcess PropsOutput.
Local Open Scope string_scope.
Local Open Scope list_scope.

(** ** The command line tool *)
(** Asking for help: [--help], or the letter h in a group after flags. *)
Definition help_word (a : str) : Prop := a = lit "--help" \/ exists fs r, a = lit "-" ++ map letter fs ++ lit "h" ++ r.
Definition version_word (a : str) : Prop := a = lit "--version" \/ exists fs r, a = lit "-" ++ map letter fs ++ lit "V" ++ r.
(** The arguments before it are flags (perhaps repeated) and at most one text, and [--] is not among them. *)
Definition asks (word : str -> Prop) (args : list str) : Prop := exists before a rest fs ts,
  args = before ++ a :: rest /\ arguments before fs ts /\ ~ In (lit "--") before /\ List.length ts <= 1 /\ word a.

Lemma letter_flag f : flag_of_letter (letter f) = Some f.
Proof. apply flag_of_letter_iff. reflexivity. Qed.
Lemma stop_letters_iff s : 
  (stop_letters s = Some SHelp <-> exists fs r, s = map letter fs ++ lit "h" ++ r) /\
  (stop_letters s = Some SVersion <-> exists fs r, s = map letter fs ++ lit "V" ++ r) /\
  (stop_letters s = None <-> exists fs, s = map letter fs).
Proof.
  induction s as [|c s (IH1 & IH2 & IH3)].
  - cbn [stop_letters]. split; [|split].
    + split; [discriminate|]. intros ([|f fs] & r & E); discriminate E.
    + split; [discriminate|]. intros ([|f fs] & r & E); discriminate E.
    + split; [exists []; reflexivity|reflexivity].
  - cbn [stop_letters]. destruct (flag_of_letter c) as [f|] eqn:F.
    + apply flag_of_letter_iff in F. subst c. rewrite IH1, IH2, IH3. split; [|split].
      * split; [intros (fs & r & ->); exists (f :: fs), r; reflexivity|]. intros ([|g fs] & r & E); [destruct f; discriminate E|]. injection E as _ E. exists fs, r. exact E.
      * split; [intros (fs & r & ->); exists (f :: fs), r; reflexivity|]. intros ([|g fs] & r & E); [destruct f; discriminate E|]. injection E as _ E. exists fs, r. exact E.
      * split; [intros (fs & ->); exists (f :: fs); reflexivity|]. intros ([|g fs] & E); [discriminate E|]. injection E as _ E. exists fs. exact E.
    + assert (G : forall f, c <> letter f) by (intros f ->; rewrite letter_flag in F; discriminate F). split; [|split].
      * split.
        -- destruct (N.eqb_spec c 0x68) as [->|_]; [intros _; exists [], s; reflexivity|]. destruct (N.eqb c 0x56); discriminate.
        -- intros ([|f fs] & r & E); injection E as E _; [subst c; reflexivity|destruct (G f E)].
      * split.
        -- destruct (N.eqb_spec c 0x68) as [->|_]; [discriminate|]. destruct (N.eqb_spec c 0x56) as [->|_]; [intros _; exists [], s; reflexivity|discriminate].
        -- intros ([|f fs] & r & E); injection E as E _; [subst c; reflexivity|destruct (G f E)].
      * split; [discriminate|]. intros ([|f fs] & E); [discriminate E|]. injection E as E _. destruct (G f E).
Qed.
Lemma dash_letters fs x : lit "-" ++ map letter fs ++ x = DASH :: map letter fs ++ x.
Proof. reflexivity. Qed.
Lemma stop_word_iff a :
  (stop_word a = Some SHelp <-> help_word a) /\ (stop_word a = Some SVersion <-> version_word a) /\
  (stop_word a = None <-> (exists fs, flag_word a fs) \/ plain a \/ a = lit "--").
Proof.
  assert (L : forall fs c r s, map letter fs ++ c :: r = DASH :: s -> c <> DASH -> False).
  { intros [|f fs] c r s E N; [injection E as -> _; destruct N; reflexivity|]. injection E as E _. exact (letter_not_dash f E). }
  destruct a as [|c [|c' r]].
  - split; [|split]; (split; [try discriminate|]).
    + intros [E|(fs & r & E)]; discriminate E.
    + intros [E|(fs & r & E)]; discriminate E.
    + intros _. right. left. right. intros r E. discriminate E.
    + reflexivity.
  - split; [|split]; (split; [try discriminate|]).
    + intros [E|([|f fs] & r & E)]; discriminate E.
    + intros [E|([|f fs] & r & E)]; discriminate E.
    + intros _. right. left. destruct (N.eqb_spec c DASH) as [->|N]; [left; reflexivity|]. right. intros r E. injection E as E _. exact (N E).
    + reflexivity.
  - cbn [stop_word]. destruct (N.eqb_spec c DASH) as [->|N].
    + destruct (N.eqb_spec c' DASH) as [->|N'].
      * destruct r as [|d r].
        -- split; [|split]; (split; [try discriminate|]).
           ++ intros [E|(fs & r & E)]; [discriminate E|]. injection E as E. symmetry in E. exfalso. apply (L _ _ _ _ E). discriminate.
           ++ intros [E|(fs & r & E)]; [discriminate E|]. injection E as E. symmetry in E. exfalso. apply (L _ _ _ _ E). discriminate.
           ++ intros _. right. right. reflexivity.
           ++ reflexivity.
        -- unfold stop_name. assert (Q : forall w, (exists fs x, DASH :: DASH :: d :: r = lit "-" ++ map letter fs ++ w :: x) -> w = DASH).
           { intros w (fs & x & E). injection E as E. symmetry in E. destruct (N.eq_dec w DASH) as [|Nw]; [assumption|]. destruct (L _ _ _ _ E Nw). }
           destruct (flag_of_name (d :: r)) as [f|] eqn:F.
           ++ apply flag_of_name_iff in F. rewrite F. split; [|split].
              ** split; [discriminate|]. intros [E|H]; [destruct f; discriminate E|]. rewrite <- F in H. apply (Q 0x68%N) in H. discriminate H.
              ** split; [discriminate|]. intros [E|H]; [destruct f; discriminate E|]. rewrite <- F in H. apply (Q 0x56%N) in H. discriminate H.
              ** split; [|reflexivity]. intros _. left. exists [f]. left. exists f. split; reflexivity.
           ++ split; [|split].
              ** split.
                 --- destruct (str_eqb (d :: r) (lit "help")) eqn:X; [apply str_eqb_eq in X; rewrite X; intros _; left; reflexivity|]. destruct (str_eqb (d :: r) (lit "version")); discriminate.
                 --- intros [E|H]; [injection E as -> ->; reflexivity|]. apply (Q 0x68%N) in H. discriminate H.
              ** split.
                 --- destruct (str_eqb (d :: r) (lit "help")) eqn:X; [discriminate|]. destruct (str_eqb (d :: r) (lit "version")) eqn:Y; [|discriminate].
                     apply str_eqb_eq in Y. rewrite Y. intros _. left. reflexivity.
                 --- intros [E|H]; [injection E as -> ->; reflexivity|]. apply (Q 0x56%N) in H. discriminate H.
              ** split; [discriminate|]. intros [[fs H]|[H|H]].
                 --- apply classify_flags in H. cbn [classify] in H. rewrite !N.eqb_refl, F in H. discriminate H.
                 --- destruct H as [H|H]; [discriminate H|]. destruct (H (DASH :: d :: r) eq_refl).
                 --- discriminate H.
      * destruct (stop_letters_iff (c' :: r)) as (S1 & S2 & S3). rewrite S1, S2, S3. split; [|split].
        -- split; [intros (fs & x & E); right; exists fs, x; rewrite E; reflexivity|]. intros [E|(fs & x & E)]; [injection E as E _; destruct (N' E)|]. injection E as E. exists fs, x. exact E.
        -- split; [intros (fs & x & E); right; exists fs, x; rewrite E; reflexivity|]. intros [E|(fs & x & E)]; [injection E as E _; destruct (N' E)|]. injection E as E. exists fs, x. exact E.
        -- split.
           ++ intros (fs & E). left. exists fs. right. split; [intros ->; discriminate E|]. rewrite E. reflexivity.
           ++ intros [[fs [(f & _ & E)|[_ E]]]|[H|H]].
              ** injection E as E _. destruct (N' E).
              ** injection E as E. eauto.
              ** destruct H as [H|H]; [discriminate H|]. destruct (H (c' :: r) eq_refl).
              ** injection H as H _. destruct (N' H).
    + split; [|split].
      * split; [discriminate|]. intros [E|(fs & x & E)]; injection E as E _; destruct (N E).
      * split; [discriminate|]. intros [E|(fs & x & E)]; injection E as E _; destruct (N E).
      * split; [|reflexivity]. intros _. right. left. right. intros x E. injection E as E _. exact (N E).
Qed.
Lemma end_escaped r : forall i s, end_loop true i r = Some s -> s = SUsage.
Proof.
  induction r as [|a r IH]; intros i s H; [discriminate H|]. cbn [end_loop] in H. destruct (take_text i a); [exact (IH _ _ H)|]. injection H as <-. reflexivity.
Qed.
Lemma loop_asks word st : st <> SUsage -> (forall a, stop_word a = Some st <-> word a) -> forall args input, end_loop false input args = Some st <->
  exists before a rest fs ts, args = before ++ a :: rest /\ arguments before fs ts /\ ~ In (lit "--") before /\ join input ts <> None /\ word a.
Proof.
  intros NU W. assert (SN : forall a, word a -> stop_word a <> None) by (intros a H; apply W in H; congruence).
  induction args as [|b args IH]; intros input.
  - split; [discriminate|]. intros ([|x before] & a & rest & fs & ts & E & _); discriminate E.
  - cbn [end_loop]. destruct (stop_word b) as [s|] eqn:S.
    + split.
      * intros E. injection E as ->. exists [], b, args, [], []. split; [reflexivity|]. split; [constructor|]. split; [intros []|]. split; [destruct input; discriminate|apply W, S].
      * intros ([|x before] & a & rest & fs & ts & E & A & N & J & H); [injection E as -> _; apply W in H; congruence|]. injection E as -> ->.
        assert (Q : stop_word x = None); [|congruence]. apply stop_word_iff. inversion A as [|? gs ? ? ? F A'|? ? ? ? P A'|]; subst; [left; eauto|right; left; exact P|right; right; reflexivity].
    + destruct (classify b) as [gs|s| |] eqn:C.
      * rewrite IH. split.
        -- intros (before & a & rest & fs & ts & -> & A & N & J & H). exists (b :: before), a, rest, (gs ++ fs), ts. split; [reflexivity|].
           split; [apply arg_flags; [apply classify_flags, C|exact A]|]. split; [|auto]. intros [->|I]; [discriminate C|exact (N I)].
        -- intros ([|x before] & a & rest & fs & ts & E & A & N & J & H); [injection E as -> _; destruct (SN a H S)|]. injection E as -> ->.
           inversion A as [|? gs' ? fs' ? F A'|? ? ? ts' P A'|]; subst.
           ++ exists before, a, rest, fs', ts. split; [reflexivity|]. split; [exact A'|]. split; [intros I; apply N; right; exact I|auto].
           ++ assert (X : classify x = WText x) by (apply classify_text; auto). congruence.
           ++ destruct N. left. reflexivity.
      * apply classify_text in C as [P ->]. split.
        -- intros X. destruct (take_text input b) as [i|] eqn:T; [|injection X as <-; destruct NU; reflexivity]. apply IH in X as (before & a & rest & fs & ts & -> & A & N & J & H).
           exists (b :: before), a, rest, fs, (b :: ts). split; [reflexivity|]. split; [apply arg_text; assumption|]. split.
           ++ intros [->|I]; [exact (plain_not_escape P)|exact (N I)].
           ++ rewrite join_cons, T. auto.
        -- intros ([|x before] & a & rest & fs & ts & E & A & N & J & H); [injection E as -> _; destruct (SN a H S)|]. injection E as -> ->.
           inversion A as [|? gs' ? fs' ? F A'|? ? ? ts' P' A'|]; subst.
           ++ apply classify_flags in F. assert (X : classify x = WText x) by (apply classify_text; auto). congruence.
           ++ rewrite join_cons in J. destruct (take_text input x) as [i|]; [|destruct J; reflexivity]. apply IH. exists before, a, rest, fs, ts'.
              split; [reflexivity|]. split; [exact A'|]. split; [intros I; apply N; right; exact I|auto].
           ++ destruct N. left. reflexivity.
      * apply classify_escape in C. subst b. split; [intros X; apply end_escaped in X; contradiction|].
        intros ([|x before] & a & rest & fs & ts & E & A & N & J & H); [injection E as <- _; destruct (SN _ H S)|]. injection E as <- ->. destruct N. left. reflexivity.
      * exfalso. apply stop_word_iff in S as [[fs F]|[P|E]].
        -- apply classify_flags in F. congruence.
        -- assert (X : classify b = WText b) by (apply classify_text; auto). congruence.
        -- apply classify_escape in E. congruence.
Qed.
Lemma join_none ts : join None ts <> None <-> List.length ts <= 1.
Proof. destruct ts as [|t [|t' ts]]; cbn; split; intros H; try lia; try discriminate. destruct H; reflexivity. Qed.
Lemma parse_end args : forall e fs i x, parse_loop e fs i args = Some x -> end_loop e i args = None.
Proof.
  induction args as [|a r IH]; intros e fs i x H; [reflexivity|]. cbn [parse_loop end_loop] in *. destruct e.
  - destruct (take_text i a); [exact (IH _ _ _ _ H)|discriminate H].
  - destruct (stop_word_iff a) as (_ & _ & SW). destruct (classify a) as [gs|s| |] eqn:C.
    + rewrite (proj2 SW); [exact (IH _ _ _ _ H)|]. left. exists gs. apply classify_flags, C.
    + rewrite (proj2 SW); [|right; left; apply classify_text in C; apply C]. destruct (take_text i s); [exact (IH _ _ _ _ H)|discriminate H].
    + rewrite (proj2 SW); [exact (IH _ _ _ _ H)|]. right. right. apply classify_escape, C.
    + discriminate H.
Qed.
Lemma ending_help args : ending_of args = EHelp <-> asks help_word args.
Proof.
  transitivity (end_loop false None args = Some SHelp).
  - unfold ending_of. destruct (end_loop false None args) as [[| |]|]; [tauto|split; discriminate..|]. destruct (parse_args args); split; discriminate.
  - rewrite (loop_asks help_word SHelp); [|discriminate|intros a; apply stop_word_iff]. unfold asks. split; intros (b & a & r & fs & ts & E & A & N & J & H); exists b, a, r, fs, ts; apply join_none in J || (apply join_none in J); auto.
Qed.
Lemma ending_version args : ending_of args = EVersion <-> asks version_word args.
Proof.
  transitivity (end_loop false None args = Some SVersion).
  - unfold ending_of. destruct (end_loop false None args) as [[| |]|]; [split; discriminate|tauto|split; discriminate|]. destruct (parse_args args); split; discriminate.
  - rewrite (loop_asks version_word SVersion); [|discriminate|intros a; apply stop_word_iff]. unfold asks. split; intros (b & a & r & fs & ts & E & A & N & J & H); exists b, a, r, fs, ts; apply join_none in J; auto.
Qed.
Lemma ending_run args op : ending_of args = ERun op <-> parse_args args = Some op.
Proof.
  unfold ending_of. destruct (parse_args args) as [op'|] eqn:P.
  - assert (E : end_loop false None args = None).
    { unfold parse_args in P. destruct (parse_loop false [] None args) as [x|] eqn:L; [|discriminate P]. exact (parse_end _ _ _ _ _ L). }
    rewrite E. split; intros H; injection H as <-; reflexivity.
  - split; [|discriminate]. destruct (end_loop false None args) as [[| |]|]; discriminate.
Qed.
(** What an argument list leads to. *)
Theorem C89_endings : forall args,
  (ending_of args = EHelp <-> asks help_word args) /\ (ending_of args = EVersion <-> asks version_word args) /\
  (forall op, ending_of args = ERun op <-> accepted args op) /\
  (ending_of args = EUsage <-> ~ asks help_word args /\ ~ asks version_word args /\ forall op, ~ accepted args op).
Proof.
  intros args. split; [apply ending_help|]. split; [apply ending_version|]. split; [intros op; rewrite ending_run; apply parse_args_iff|].
  rewrite <- ending_help, <- ending_version. assert (R : forall op, accepted args op <-> ending_of args = ERun op) by (intros op; rewrite ending_run; symmetry; apply parse_args_iff).
  split.
  - intros E. split; [congruence|]. split; [congruence|]. intros op A. apply R in A. congruence.
  - intros (H1 & H2 & H3). destruct (ending_of args) as [| | |op]; [destruct H1; reflexivity|destruct H2; reflexivity|reflexivity|]. destruct (H3 op). apply R. reflexivity.
Qed.
Print Assumptions C89_endings.
(** The exit status: 2 for a usage error, 101 for a panic, otherwise 0. *)
Theorem C89_status : forall o w args stdin,
  (exit_status o w args stdin = 2%N <-> ~ asks help_word args /\ ~ asks version_word args /\ forall op, ~ accepted args op) /\
  (exit_status o w args stdin = 101%N <-> process o w args stdin = Panicked) /\
  (exit_status o w args stdin = 0%N <-> asks help_word args \/ asks version_word args \/
    (exists b, process o w args stdin = Output b) \/ process o w args stdin = ReadFailed) /\
  (process o w args stdin = NotRun <-> forall op, ending_of args <> ERun op).
Proof.
  intros o w args stdin. rewrite <- ending_help, <- ending_version. destruct (C89_endings args) as (_ & _ & R & U). rewrite <- ending_help, <- ending_version in U. rewrite <- U.
  assert (Q : process o w args stdin = NotRun <-> forall op, ending_of args <> ERun op).
  { unfold process. destruct (parse_args args) as [op|] eqn:P.
    - apply ending_run in P. split; [destruct (cli_main o w op (stdin_text stdin)) as [[|]| |]; discriminate|]. intros H. destruct (H op P).
    - split; [|reflexivity]. intros _ op E. apply ending_run in E. congruence. }
  unfold exit_status. destruct (ending_of args) as [| | |op] eqn:E.
  - assert (X : process o w args stdin = NotRun) by (apply Q; discriminate). rewrite X. repeat split; try discriminate; auto.
  - assert (X : process o w args stdin = NotRun) by (apply Q; discriminate). rewrite X. repeat split; try discriminate; auto.
  - assert (X : process o w args stdin = NotRun) by (apply Q; discriminate). rewrite X. repeat split; try discriminate; auto.
    intros [H|[H|[[b H]|H]]]; discriminate H.
  - assert (X : process o w args stdin <> NotRun) by (intros X; destruct (proj1 Q X op); reflexivity).
    destruct (process o w args stdin) as [|b| |]; [destruct X; reflexivity| | |]; repeat split; try discriminate; auto; try (intros H; destruct (H op); reflexivity).
    + intros _. right. right. left. exists b. reflexivity.
    + intros [H|[H|[[b H]|H]]]; discriminate H.
Qed.
Print Assumptions C89_status.
(** Help and version come before everything else: the files, the environment and standard input do not matter. *)
Theorem C89_help_first : forall o o' w w' args stdin stdin', asks help_word args \/ asks version_word args ->
  exit_status o w args stdin = exit_status o' w' args stdin' /\ process o w args stdin = NotRun.
Proof.
  intros o o' w w' args stdin stdin' H. destruct (C89_status o w args stdin) as (_ & _ & Z & R). destruct (C89_status o' w' args stdin') as (_ & _ & Z' & _).
  split; [transitivity 0%N; [apply Z; tauto|symmetry; apply Z'; tauto]|]. apply R. intros op E. rewrite <- ending_help, <- ending_version in H. destruct H; congruence.
Qed.
Print Assumptions C89_help_first.
(** Status 0 does not mean that a text was normalised. *)
Theorem C89_success_refuted : exists o w stdin, exit_status o w [] stdin = 0%N /\ forall b, process o w [] stdin <> Output b.
Proof.
  exists no_order, (search_world [] "/h" "/d"), (FileBytes [0xFF%N]). split; [vm_compute; reflexivity|]. intros b H. vm_compute in H. discriminate H.
Qed.
Print Assumptions C89_success_refuted.

(** ** The output tool *)
Definition out_help_word (a : str) : Prop := a = lit "--help" \/ exists r, a = lit "-h" ++ r.
Definition out_version_word (a : str) : Prop := a = lit "--version" \/ exists r, a = lit "-V" ++ r.
(** Options before it, perhaps several, perhaps without value. *)
Inductive options_before : list str -> Prop :=
| ob_end : options_before []
| ob_option a v r : format_option a v -> options_before r -> options_before (a ++ r)
| ob_alone k r : k = lit "-f" \/ k = lit "--format" -> options_before r -> options_before (k :: r).
Definition out_asks (word : str -> Prop) (args : list str) : Prop := exists before a rest, args = before ++ a :: rest /\ options_before before /\ word a.
Lemma out_stop_iff a :
  (out_classify a = OStop /\ out_stop a = SHelp <-> out_help_word a) /\ (out_classify a = OStop /\ out_stop a = SVersion <-> out_version_word a).
Proof.
  assert (Cl : forall r, out_classify (lit "-h" ++ r) = OStop /\ out_classify (lit "-V" ++ r) = OStop) by (intros r; split; reflexivity).
  split.
  - split.
    + intros [C S]. destruct a as [|c [|c' r]]; [discriminate C|cbn [out_classify] in C; destruct (N.eqb c DASH); discriminate C|]. cbn [out_classify] in C.
      destruct (N.eqb_spec c DASH) as [->|N]; [|discriminate C]. cbn [out_stop] in S. destruct (N.eqb_spec c' DASH) as [->|N'].
      * left. destruct (str_eqb r (lit "help")) eqn:E; [apply str_eqb_eq in E; rewrite E; reflexivity|]. destruct (str_eqb r (lit "version")); discriminate S.
      * right. exists r. destruct (N.eqb_spec c' 0x68) as [->|_]; [reflexivity|]. destruct (N.eqb c' 0x56); discriminate S.
    + intros [->|[r ->]]; split; reflexivity.
  - split.
    + intros [C S]. destruct a as [|c [|c' r]]; [discriminate C|cbn [out_classify] in C; destruct (N.eqb c DASH); discriminate C|]. cbn [out_classify] in C.
      destruct (N.eqb_spec c DASH) as [->|N]; [|discriminate C]. cbn [out_stop] in S. destruct (N.eqb_spec c' DASH) as [->|N'].
      * left. destruct (str_eqb r (lit "help")) eqn:E; [discriminate S|]. destruct (str_eqb r (lit "version")) eqn:E'; [|discriminate S]. apply str_eqb_eq in E'. rewrite E'. reflexivity.
      * right. exists r. destruct (N.eqb_spec c' 0x68) as [->|_]; [discriminate S|]. destruct (N.eqb_spec c' 0x56) as [->|_]; [reflexivity|discriminate S].
    + intros [->|[r ->]]; split; reflexivity.
Qed.
Lemma out_loop_option a v : format_option a v -> forall p r, out_end_loop p (a ++ r) = out_end_loop false r.
Proof.
  intros F p r. destruct F as [v P|v|c x N|v P|v]; cbn [app out_end_loop].
  - change (out_classify (lit "-f")) with OPending. cbn iota. rewrite (classify_plain v P). reflexivity.
  - change (out_classify (lit "-f=" ++ v)) with (OWith v). reflexivity.
  - rewrite (classify_joined c x N). reflexivity.
  - change (out_classify (lit "--format")) with OPending. cbn iota. rewrite (classify_plain v P). reflexivity.
  - rewrite classify_long. reflexivity.
Qed.
Lemma out_loop_asks word st : st <> SUsage -> (forall a, out_classify a = OStop /\ out_stop a = st <-> word a) -> forall args, out_end_loop false args = Some st <-> out_asks word args.
Proof.
  intros NU W args. split.
  - assert (X : forall args, (out_end_loop false args = Some st -> out_asks word args) /\
      (out_end_loop true args = Some st -> forall k, k = lit "-f" \/ k = lit "--format" -> out_asks word (k :: args))); [|apply X].
    clear args. induction args as [|a r [IH1 IH2]]; [split; discriminate|]. cbn [out_end_loop]. pose proof (out_classify_spec a) as S. destruct (out_classify a) as [v| | | |] eqn:C.
    + split; [intros H|intros H k K]; apply IH1 in H as (b & x & rest & -> & B & H).
      * exists (a :: b), x, rest. split; [reflexivity|]. split; [exact (ob_option [a] v b S B)|exact H].
      * exists (k :: a :: b), x, rest. split; [reflexivity|]. split; [apply (ob_alone k _ K), (ob_option [a] v b S B)|exact H].
    + split; [intros H; exact (IH2 H a S)|]. intros H k K. destruct (IH2 H a S) as (b & x & rest & E & B & H'). exists (k :: b), x, rest.
      split; [rewrite E; reflexivity|]. split; [exact (ob_alone k b K B)|exact H'].
    + split; [intros H; injection H as <-; destruct NU; reflexivity|]. intros H k K. apply IH1 in H as (b & x & rest & -> & B & H).
      exists (k :: a :: b), x, rest. split; [reflexivity|]. split; [|exact H]. apply (ob_option [k; a] a b); [|exact B].
      destruct K as [-> | ->]; [apply fo_short, S|apply fo_long, S].
    + split; [intros H|intros H k K]; (destruct r; [discriminate H|injection H as <-; destruct NU; reflexivity]).
    + assert (Q : Some (out_stop a) = Some st -> word a) by (intros H; injection H as H; apply W; auto). split; [intros H|intros H k K].
      * exists [], a, r. split; [reflexivity|]. split; [constructor|exact (Q H)].
      * exists [k], a, r. split; [reflexivity|]. split; [apply (ob_alone k [] K); constructor|exact (Q H)].
  - intros (b & a & rest & -> & B & H). apply W in H as [C S]. assert (X : forall p, out_end_loop p (b ++ a :: rest) = Some st); [|apply X].
    induction B as [|o v r F B IH|k r K B IH]; intros p.
    + cbn [app out_end_loop]. rewrite C, S. reflexivity.
    + rewrite <- app_assoc, (out_loop_option o v F). apply IH.
    + cbn [app out_end_loop]. assert (E : out_classify k = OPending) by (destruct K as [-> | ->]; reflexivity). rewrite E. apply IH.
Qed.
Lemma out_parse_end args : forall p vs ws, out_loop p vs args = Some ws -> out_end_loop p args = None.
Proof.
  induction args as [|a r IH]; intros p vs ws H; [reflexivity|]. cbn [out_loop out_end_loop] in *. destruct (out_classify a) as [v| | | |].
  - destruct p; [discriminate H|exact (IH _ _ _ H)].
  - destruct p; [discriminate H|exact (IH _ _ _ H)].
  - destruct p; [exact (IH _ _ _ H)|discriminate H].
  - destruct r; [reflexivity|discriminate H].
  - discriminate H.
Qed.
Theorem C89_output_tool : forall o args,
  (out_ending_of args = EHelp <-> out_asks out_help_word args) /\ (out_ending_of args = EVersion <-> out_asks out_version_word args) /\
  (forall v, out_ending_of args = ERun v <-> format_given args v) /\
  (out_exit_status o args = 2%N <-> ~ out_asks out_help_word args /\ ~ out_asks out_version_word args /\ forall v, ~ format_given args v) /\
  (out_exit_status o args = 0%N <-> out_exit_status o args <> 2%N).
Proof.
  intros o args.
  assert (H1 : out_ending_of args = EHelp <-> out_asks out_help_word args).
  { rewrite <- (out_loop_asks out_help_word SHelp); [|discriminate|intros a; apply out_stop_iff]. unfold out_ending_of.
    destruct (out_end_loop false args) as [[| |]|]; [tauto|split; discriminate..|]. destruct (parse_format args); split; discriminate. }
  assert (H2 : out_ending_of args = EVersion <-> out_asks out_version_word args).
  { rewrite <- (out_loop_asks out_version_word SVersion); [|discriminate|intros a; apply out_stop_iff]. unfold out_ending_of.
    destruct (out_end_loop false args) as [[| |]|]; [split; discriminate|tauto|split; discriminate|]. destruct (parse_format args); split; discriminate. }
  assert (H3 : forall v, out_ending_of args = ERun v <-> format_given args v).
  { intros v. rewrite <- C79_accepted_iff. unfold out_ending_of. destruct (parse_format args) as [v'|] eqn:P.
    - assert (E : out_end_loop false args = None).
      { unfold parse_format in P. destruct (out_loop false [] args) as [ws|] eqn:L; [|discriminate P]. exact (out_parse_end _ _ _ _ L). }
      rewrite E. split; intros H; injection H as <-; reflexivity.
    - split; [|discriminate]. destruct (out_end_loop false args) as [[| |]|]; discriminate. }
  split; [exact H1|]. split; [exact H2|]. split; [exact H3|]. rewrite <- H1, <- H2. destruct (C79_prints o args) as (_ & _ & _ & NP). unfold out_exit_status.
  destruct (out_ending_of args) as [| | |v] eqn:E.
  - repeat split; try discriminate. intros (H & _). destruct H; reflexivity.
  - repeat split; try discriminate. intros (_ & H & _). destruct H; reflexivity.
  - repeat split; try discriminate; [intros v A; apply H3 in A; discriminate A|]. intros H. destruct H; reflexivity.
  - destruct (out_process o args); [| | |destruct NP; reflexivity]; (repeat split; try discriminate; intros (_ & _ & H); destruct (H v); apply H3; reflexivity).
Qed.
Print Assumptions C89_output_tool.
Example C89_case :
  ending_of [lit "a"; lit "-d"; lit "-dph"; lit "--nothing"] = EHelp /\ ending_of [lit "a"; lit "b"; lit "--help"] = EUsage /\ ending_of [lit "--"; lit "--help"] = ERun (Opts (Some (lit "--help")) false false false) /\
  ending_of [lit "-d"; lit "-d"; lit "-V"] = EVersion /\ ending_of [lit "-d"; lit "-d"] = EUsage /\ ending_of [lit "--help=x"] = EUsage /\ ending_of [lit "-xh"] = EUsage /\
  exit_status no_order (rc_world "/missing.csv") [lit "a"] (FileBytes []) = 101%N /\ exit_status no_order (rc_world "/missing.csv") [lit "-h"] (FileBytes []) = 0%N /\
  asks help_word [lit "a"; lit "-d"; lit "-dph"; lit "--nothing"] /\
  out_ending_of [lit "-f"; lit "--help"] = EHelp /\ out_ending_of [lit "-fh"] = ERun (lit "h") /\ out_ending_of [lit "-f"; lit "x"; lit "--format"; lit "-Vx"] = EVersion /\
  out_ending_of [lit "x"; lit "-h"] = EUsage.
Proof.
  repeat (split; [vm_compute; reflexivity|]). split; [|vm_compute; auto].
  exists [lit "a"; lit "-d"], (lit "-dph"), [lit "--nothing"], [FDebug], [lit "a"]. split; [reflexivity|]. split.
  - apply arg_text; [right; intros r E; discriminate E|]. apply (arg_flags (lit "-d") [FDebug] [] [] []); [right; split; [discriminate|reflexivity]|constructor].
  - split; [intros [H|[H|[]]]; discriminate H|]. split; [cbn; lia|]. right. exists [FDebug; FPreset], []. reflexivity.
Qed.
