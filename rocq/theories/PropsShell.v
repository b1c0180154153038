(** C114: runs of the command line tool joined by pipes. *)
From Coq Require Import String.
From Verif Require Import Base PathSpec Utf8 StrOps Converter Neologdn ModifierKind ChanomaModel Yaml File Configuration Cli Csv Process Ending
  CharSpec Spec BaseFacts CharsetFacts ConverterFacts NeoFacts NeoProps NeoMore PropsNeo PropsNeoMore PropsConverter PropsPipeline CommProps BinSpec BinProps PropsBin ProcessSpec ProcessProps PropsProcess
  CsvProps ConfigProps PropsConfig PropsEnding PropsOrigin PropsSame PropsSuperfluousNeo PropsRepeat ShellPipe ShellSpec.
From Coq Require Import Lia.
Local Open Scope string_scope.
Local Open Scope list_scope.
Opaque neo_text.

Lemma accepted_process args op o w stdin : accepted args op ->
  process o w args stdin = match cli_main o w op (stdin_text stdin) with Ok (Printed s) => Output (encode s ++ [NEWLINE]) | Ok StdinError => ReadFailed | _ => Panicked end.
Proof. intros A. unfold process. rewrite (proj2 (parse_args_iff args op) A). reflexivity. Qed.
(** A run that reads the line [line] is a run that is given [line]. *)
Lemma read_given o w args op args' stdin line f : accepted args op -> o_input op = None -> accepted args' (given op line) ->
  valid_str line -> stdin_line stdin (encode line) -> process o w args stdin = process o w args' f.
Proof.
  intros A I A' V L. rewrite (accepted_process args op) by exact A. rewrite (accepted_process args' (given op line)) by exact A'.
  destruct (stdin_line_text stdin line V L) as (s & E & F). rewrite E. unfold cli_main, given. rewrite I. cbn [o_input o_debug o_preset o_neologdn].
  rewrite (first_line_unique s _ line (read_line_spec s) F). reflexivity.
Qed.
Lemma run_ending args op : accepted args op -> ending_of args = ERun op.
Proof. intros A. destruct (C89_endings args) as (_ & _ & R & _). apply R, A. Qed.
Lemma stdout_output r stdin b : process (r_order r) (r_world r) (r_args r) stdin = Output b -> on_stdout r stdin = b.
Proof.
  intros E. unfold on_stdout. destruct (C89_status (r_order r) (r_world r) (r_args r) stdin) as (_ & _ & _ & N).
  destruct (ending_of (r_args r)) as [| | |op] eqn:Q; [| | |rewrite E; reflexivity]; exfalso; (assert (X : process (r_order r) (r_world r) (r_args r) stdin = NotRun) by (apply N; congruence)); congruence.
Qed.
Lemma first_line_encode out line : first_line out line -> stdin_line (FileBytes (encode out ++ [0x0A%N])) (encode line).
Proof.
  intros [N H]. split; [rewrite encode_nl; exact N|]. left. destruct H as [->|(rest & ->)].
  - exists []. left. reflexivity.
  - exists (encode rest ++ [0x0A%N]). left. rewrite !encode_app, <- !app_assoc. reflexivity.
Qed.
Lemma first_line_valid out line : valid_str out -> first_line out line -> valid_str line.
Proof. intros V [_ [->|(rest & ->)]]; [exact V|]. apply valid_app in V. tauto. Qed.

(** The next run works on the first line of the printed text, as if it were its argument. *)
Theorem C114_first_line : forall r r' rs stdin op' out line, accepted (r_args r') op' -> o_input op' = None ->
  process (r_order r) (r_world r) (r_args r) stdin = Output (encode out ++ [0x0A%N]) -> valid_str out -> first_line out line ->
  forall args f, accepted args (given op' line) ->
  chain r (r' :: rs) stdin = chain (Run (r_order r') (r_world r') args (r_message r') (r_info r')) rs f.
Proof.
  intros r r' rs stdin op' out line A I E V F args f A'. cbn [chain]. rewrite (stdout_output r stdin _ E).
  assert (Q : process (r_order r') (r_world r') (r_args r') (FileBytes (encode out ++ [0x0A%N])) = process (r_order r') (r_world r') args f).
  { apply (read_given _ _ _ op' _ _ line); try assumption; [exact (first_line_valid _ _ V F)|apply first_line_encode, F]. }
  destruct rs as [|r2 rs]; cbn [chain]; [exact Q|]. do 2 f_equal. unfold on_stdout. cbn [r_order r_world r_args r_message r_info].
  rewrite Q, (run_ending _ _ A), (run_ending _ _ A'). reflexivity.
Qed.
Print Assumptions C114_first_line.
(** A run that ends without output, by a panic or because its arguments are wrong, is an empty text to the next. *)
Theorem C114_failure : forall r r' rs stdin op', accepted (r_args r') op' -> o_input op' = None ->
  exit_status (r_order r) (r_world r) (r_args r) stdin <> 0%N ->
  forall args f, accepted args (given op' []) ->
  chain r (r' :: rs) stdin = chain (Run (r_order r') (r_world r') args (r_message r') (r_info r')) rs f.
Proof.
  intros r r' rs stdin op' A I E args f A'. cbn [chain].
  assert (B : on_stdout r stdin = []).
  { unfold on_stdout. unfold exit_status in E. destruct (ending_of (r_args r)); try reflexivity; try congruence.
    destruct (process (r_order r) (r_world r) (r_args r) stdin); congruence. }
  rewrite B.
  assert (Q : process (r_order r') (r_world r') (r_args r') (FileBytes []) = process (r_order r') (r_world r') args f).
  { apply (read_given _ _ _ op' _ _ []); try assumption; [constructor|]. split; [intros []|right; reflexivity]. }
  destruct rs as [|r2 rs]; cbn [chain]; [exact Q|]. do 2 f_equal. unfold on_stdout. cbn [r_order r_world r_args r_message r_info].
  rewrite Q, (run_ending _ _ A), (run_ending _ _ A'). reflexivity.
Qed.
Print Assumptions C114_failure.
(** The message of a run that could not read its input is the text of the next. *)
Theorem C114_message : forall r r' rs stdin op' m, accepted (r_args r') op' -> o_input op' = None ->
  process (r_order r) (r_world r) (r_args r) stdin = ReadFailed -> r_message r = encode m -> valid_str m -> ~ In 0x0A%N m ->
  forall args f, accepted args (given op' (lit "error: " ++ m)) ->
  chain r (r' :: rs) stdin = chain (Run (r_order r') (r_world r') args (r_message r') (r_info r')) rs f.
Proof.
  intros r r' rs stdin op' m A I E M V N args f A'. cbn [chain].
  assert (B : on_stdout r stdin = encode (lit "error: " ++ m) ++ [0x0A%N]).
  { unfold on_stdout. destruct (C89_status (r_order r) (r_world r) (r_args r) stdin) as (_ & _ & _ & Q).
    destruct (ending_of (r_args r)) as [| | |op] eqn:Z; [| | |rewrite E, M, encode_app, <- app_assoc; reflexivity];
      exfalso; (assert (X : process (r_order r) (r_world r) (r_args r) stdin = NotRun) by (apply Q; congruence)); congruence. }
  rewrite B.
  assert (F : first_line (lit "error: " ++ m) (lit "error: " ++ m)).
  { split; [|left; reflexivity]. rewrite in_app_iff. intros [H|H]; [|exact (N H)]. cbn in H. repeat (destruct H as [H|H]; [discriminate H|]). exact H. }
  assert (Vm : valid_str (lit "error: " ++ m)) by (apply valid_app; split; [repeat constructor|exact V]).
  assert (Q : process (r_order r') (r_world r') (r_args r') (FileBytes (encode (lit "error: " ++ m) ++ [0x0A%N])) = process (r_order r') (r_world r') args f).
  { apply (read_given _ _ _ op' _ _ (lit "error: " ++ m)); try assumption. apply first_line_encode, F. }
  destruct rs as [|r2 rs]; cbn [chain]; [exact Q|]. do 2 f_equal. unfold on_stdout. cbn [r_order r_world r_args r_message r_info].
  rewrite Q, (run_ending _ _ A), (run_ending _ _ A'). reflexivity.
Qed.
Print Assumptions C114_message.

Lemma last_any {A} (l : list A) a b : forall x, last (x :: l) a = last (x :: l) b.
Proof. induction l as [|y l IH]; intros x; [reflexivity|]. exact (IH y). Qed.
(** The status the shell shows is that of the last run, and tells how the chain ends. *)
Theorem C114_status : forall r rs stdin,
  (chain_status r rs stdin = 101%N <-> chain r rs stdin = Panicked) /\
  (chain_status r rs stdin = 2%N <-> ~ asks help_word (r_args (last rs r)) /\ ~ asks version_word (r_args (last rs r)) /\ forall op, ~ accepted (r_args (last rs r)) op) /\
  (chain_status r rs stdin = 0%N <-> asks help_word (r_args (last rs r)) \/ asks version_word (r_args (last rs r)) \/
    (exists b, chain r rs stdin = Output b) \/ chain r rs stdin = ReadFailed).
Proof.
  intros r rs; revert r. induction rs as [|r' rs IH]; intros r stdin.
  - cbn [chain chain_status last]. destruct (C89_status (r_order r) (r_world r) (r_args r) stdin) as (A & B & C & _). auto.
  - cbn [chain chain_status]. assert (E : last (r' :: rs) r = last rs r').
    { destruct rs as [|x rs]; [reflexivity|]. exact (last_any rs r r' x). }
    rewrite E. apply IH.
Qed.
Print Assumptions C114_status.

(** ** Two runs *)
Lemma treats_prints r op stdin b : (forall s, w_env (r_world r) = EnvUnicode s -> unicode s) -> accepted (r_args r) op ->
  ((exists o, process o (r_world r) (r_args r) stdin = Output b) <-> exists text out, process_text op stdin text /\ treats r op text out /\ b = encode out ++ [0x0A%N]).
Proof.
  intros U A. rewrite (C74_output_iff (r_world r) (r_args r) stdin b U). split.
  - intros (op' & cfg & text & x & y & out & A' & L & T & R1 & R2 & R3 & D & E).
    assert (op' = op) by (apply parse_args_iff in A, A'; congruence). subst op'. exists text, out. split; [exact T|]. split; [|exact E].
    exists cfg, x, y. auto.
  - intros (text & out & T & (cfg & x & y & L & R1 & R2 & R3 & D) & E). exists op, cfg, text, x, y, out. auto 10.
Qed.
Lemma text_unique op stdin t t' : process_text op stdin t -> process_text op stdin t' -> t = t'.
Proof.
  intros [H|(I & V & L)] [H'|(I' & V' & L')]; try congruence. apply encode_inj'; [exact V|exact V'|]. exact (stdin_line_unique _ _ _ L L').
Qed.
Lemma preset_free c : conv1 PRESET c = 0x0A%N -> c = 0x0A%N.
Proof.
  unfold conv1. destruct (conv_get PRESET c) as [t|] eqn:E; [|auto]. intros ->. unfold conv_get in E. apply (hm_get_In N.eqb N.eqb_eq) in E.
  assert (F : forallb (fun p => negb (N.eqb (snd p) 0x0A)) PRESET = true) by (vm_compute; reflexivity).
  rewrite forallb_forall in F. apply F in E. discriminate E.
Qed.
Lemma preset_text c : is_scalar c = true -> is_scalar (conv1 PRESET c) = true.
Proof.
  unfold conv1. destruct (conv_get PRESET c) as [t|] eqn:E; [|auto]. intros _. unfold conv_get in E. apply (hm_get_In N.eqb N.eqb_eq) in E.
  assert (F : forallb (fun p => is_scalar (snd p)) PRESET = true) by (vm_compute; reflexivity).
  rewrite forallb_forall in F. apply F in E. exact E.
Qed.
Lemma P_line s : valid_str s -> ~ In 0x0A%N s -> valid_str (P s) /\ ~ In 0x0A%N (P s).
Proof.
  intros V N. split.
  - apply Forall_forall. intros c I. apply in_map_iff in I as (d & <- & I). apply preset_text. unfold valid_str in V. rewrite Forall_forall in V. apply V, I.
  - intros I. apply in_map_iff in I as (d & E & I). apply preset_free in E. subst d. exact (N I).
Qed.
Lemma filter_same (c : char) (q s : str) : filter (N.eqb c) q = filter (N.eqb c) s -> In c q -> In c s.
Proof.
  intros F I. assert (J : In c (filter (N.eqb c) q)) by (apply filter_In; split; [exact I|apply N.eqb_refl]).
  rewrite F in J. apply filter_In in J. tauto.
Qed.
Lemma N_line s : valid_str s -> ~ In 0x0A%N s -> valid_str (N2 s) /\ ~ In 0x0A%N (N2 s).
Proof.
  intros V N. split; [apply neo_valid, V|]. intros I. apply N.
  assert (F : filter (N.eqb 0x0A) (N2 s) = filter (N.eqb 0x0A) s).
  { apply kept_neo; [|apply neo_text_result; reflexivity]. intros c H. apply N.eqb_eq in H. subst c. apply untouchedb_sound. vm_compute. reflexivity. }
  exact (filter_same _ _ _ F I).
Qed.
Lemma treats_line r op s out : one_line r -> treats r op s out -> valid_str s -> ~ In 0x0A%N s -> valid_str out /\ ~ In 0x0A%N out.
Proof.
  intros (U & O) (cfg & a & b & L & R1 & R2 & R3 & _) V N. destruct (O no_order cfg (L no_order)) as [T I].
  pose proof (load_rc_constructible no_order (r_world r) cfg U (L no_order)) as C.
  assert (Va : valid_str a) by (exact (C76_text_stays_text cfg C T s a V R1)).
  assert (Na : ~ In 0x0A%N a).
  { intros J. destruct (C76_origin cfg C s a R1 _ J) as [K|(m & M & K)]; [exact (N K)|exact (I m M K)]. }
  assert (B : valid_str b /\ ~ In 0x0A%N b).
  { destruct (o_preset op); cbn in R2; [|subst; auto]. apply P_pointwise in R2. subst b. apply P_line; assumption. }
  destruct B as [Vb Nb]. destruct (o_neologdn op); cbn in R3; [|subst; auto]. apply neo_text_result in R3. subst out. apply N_line; assumption.
Qed.
(** Where no line feed comes in, two runs joined by a pipe are one normalisation after the other. *)
Theorem C114_joined : forall r r' op op' stdin text, accepted (r_args r) op -> accepted (r_args r') op' -> o_input op' = None ->
  one_line r -> one_line r' -> process_text op stdin text -> valid_str text -> ~ In 0x0A%N text -> (exists mid, treats r op text mid) ->
  forall b, (exists o o', chain (reordered r o) [reordered r' o'] stdin = Output b) <->
    exists mid out, treats r op text mid /\ treats r' op' mid out /\ b = encode out ++ [0x0A%N].
Proof.
  intros r r' op op' stdin text A A' I O O' T V N (mid0 & W) b.
  assert (K : forall o, exists mid, treats r op text mid /\ on_stdout (reordered r o) stdin = encode mid ++ [0x0A%N]).
  { intros o. destruct W as (cfg & a & c & L & R1 & R2 & R3 & D).
    destruct (cli_normal o (r_world r) op (stdin_text stdin) cfg text (proj1 O) (L o) (proj1 (process_text_iff _ _ _) T)) as (mid & E1 & E2).
    assert (Q : process o (r_world r) (r_args r) stdin = Output (encode mid ++ [0x0A%N])).
    { rewrite (accepted_process _ op) by exact A. rewrite E2. destruct (o_debug op) eqn:Dd; [|reflexivity].
      destruct (cli_modifiers op cfg) eqn:Z; [|reflexivity]. apply cli_modifiers_nil in Z as (Z1 & Z2 & Z3). destruct (D eq_refl) as [D'|[D'|D']]; congruence. }
    exists mid. split; [|exact (stdout_output (reordered r o) stdin _ Q)].
    assert (R : result (cli_modifiers op cfg) text mid) by (exists (sub o 3); exact E1).
    apply cli_modifiers_result in R as (a' & b' & Q1 & Q2 & Q3). exists cfg, a', b'. auto. }
  assert (S : forall mid, treats r op text mid -> stdin_line (FileBytes (encode mid ++ [0x0A%N])) (encode mid) /\ valid_str mid).
  { intros mid M. destruct (treats_line r op text mid O M V N) as [Vm Nm]. split; [|exact Vm]. apply first_line_encode. split; [exact Nm|left; reflexivity]. }
  cbn [chain]. split.
  - intros (o & o' & E). destruct (K o) as (mid & M & Q). rewrite Q in E. destruct (S mid M) as [L Vm].
    destruct (proj1 (treats_prints r' op' (FileBytes (encode mid ++ [0x0A%N])) b (proj1 O') A') (ex_intro _ o' E)) as (text' & out & T' & M' & ->).
    assert (text' = mid) by (apply (text_unique op' _ _ _ T'); right; auto). subst text'. exists mid, out. auto.
  - intros (mid & out & M & M' & ->). destruct (S mid M) as [L Vm].
    destruct (proj2 (treats_prints r op stdin (encode mid ++ [0x0A%N]) (proj1 O) A)) as (o & E); [exists text, mid; auto|].
    destruct (proj2 (treats_prints r' op' (FileBytes (encode mid ++ [0x0A%N])) (encode out ++ [0x0A%N]) (proj1 O') A')) as (o' & E').
    { exists mid, out. split; [right; auto|]. auto. }
    exists o, o'. rewrite (stdout_output (reordered r o) stdin _ E). exact E'.
Qed.
Print Assumptions C114_joined.

(** ** Any number of runs without configuration *)
Definition post (op : opts) (t : str) : str := Nat.iter (if o_neologdn op then 1 else 0) N2 (Nat.iter (if o_preset op then 1 else 0) P t).
Lemma bare_runs r op stdin text : bare r op -> process_text op stdin text -> process (r_order r) (r_world r) (r_args r) stdin = Output (encode (post op text) ++ [0x0A%N]).
Proof.
  intros (A & L & D) T. rewrite (accepted_process _ op) by exact A.
  rewrite (cli_text (r_order r) (r_world r) op (stdin_text stdin) [] text (L _) (proj1 (process_text_iff _ _ _) T)).
  destruct (C32_lemma (sub (r_order r) 3) (cli_modifiers op []) text (cli_modifiers_constructible op [] (Forall_nil _))) as (out & E1 & E2).
  assert (R : out = post op text).
  { assert (Q : result (cli_modifiers op []) text out) by (exists (sub (r_order r) 3); exact E1). apply cli_modifiers_result in Q as (a & b & Q1 & Q2 & Q3).
    assert (a = text) by (destruct Q1 as (o & Q1); cbn in Q1; congruence). subst a. unfold post. destruct (o_preset op); cbn in Q2; [apply P_pointwise in Q2|]; subst b;
      (destruct (o_neologdn op); cbn in Q3; [apply neo_text_result in Q3|]; subst out; reflexivity). }
  subst out. destruct (o_debug op); [|rewrite E1; reflexivity]. rewrite E2. destruct (cli_modifiers op []) eqn:Z; [|reflexivity].
  apply cli_modifiers_nil in Z as (_ & Z2 & Z3). destruct (D eq_refl); congruence.
Qed.
Lemma post_line op t : valid_str t -> ~ In 0x0A%N t -> valid_str (post op t) /\ ~ In 0x0A%N (post op t).
Proof.
  intros V N. unfold post. assert (B : valid_str (Nat.iter (if o_preset op then 1 else 0) P t) /\ ~ In 0x0A%N (Nat.iter (if o_preset op then 1 else 0) P t)).
  { destruct (o_preset op); [apply P_line; assumption|auto]. }
  destruct (o_neologdn op); [apply N_line; tauto|exact B].
Qed.
Lemma chain_posts : forall rs ops r op stdin text, bare r op -> Forall2 (fun r op => bare r op /\ o_input op = None) rs ops -> process_text op stdin text ->
  valid_str text -> ~ In 0x0A%N text -> chain r rs stdin = Output (encode (fold_left (fun t op => post op t) (op :: ops) text) ++ [0x0A%N]).
Proof.
  induction rs as [|r' rs IH]; intros ops r op stdin text B F T V N.
  - inversion F; subst. cbn [chain fold_left]. apply bare_runs; assumption.
  - inversion F as [|? op' ? ops' [B' I'] F']; subst. cbn [chain fold_left]. rewrite (stdout_output r stdin _ (bare_runs r op stdin text B T)).
    destruct (post_line op text V N) as [V' N']. apply (IH ops' r' op'); try assumption.
    right. split; [exact I'|]. split; [exact V'|]. apply first_line_encode. split; [exact N'|left; reflexivity].
Qed.
Definition asks_neologdn (ops : list opts) : nat := List.length (filter o_neologdn ops).
Definition asks_preset (ops : list opts) : nat := List.length (filter o_preset ops).
Lemma posts_sorted ops : forall t, fold_left (fun t op => post op t) ops t = Nat.iter (asks_neologdn ops) N2 (Nat.iter (asks_preset ops) P t).
Proof.
  induction ops as [|op ops IH]; intros t; [reflexivity|]. cbn [fold_left]. rewrite IH. unfold post. rewrite <- iter_comm', !iter_plus.
  unfold asks_neologdn, asks_preset. cbn [filter]. f_equal; [|f_equal].
  - destruct (o_neologdn op); cbn [List.length]; lia.
  - destruct (o_preset op); cbn [List.length]; lia.
Qed.
Lemma iter_repeatedly n s : repeatedly n neologdn_result s (Nat.iter n N2 s).
Proof.
  revert s. induction n as [|n IH]; intros s; [reflexivity|]. exists (N2 s). split; [apply neo_text_result; reflexivity|]. rewrite <- iter_shift. apply IH.
Qed.
(** Runs with nothing but the built-in modifiers: it only matters whether the preset is asked for at all, and whether
    neologdn is not, once or more often. *)
Theorem C114_built_in : forall r rs op ops stdin text, bare r op -> Forall2 (fun r op => bare r op /\ o_input op = None) rs ops ->
  process_text op stdin text -> valid_str text -> ~ In 0x0A%N text ->
  exists a b, if_asked (existsb o_preset (op :: ops)) (pointwise preset_rel) text a /\
    repeatedly (Nat.min 2 (asks_neologdn (op :: ops))) neologdn_result a b /\ chain r rs stdin = Output (encode b ++ [0x0A%N]).
Proof.
  intros r rs op ops stdin text B F T V N. rewrite (chain_posts rs ops r op stdin text B F T V N), posts_sorted.
  set (l := op :: ops). exists (Nat.iter (asks_preset l) P text), (Nat.iter (asks_neologdn l) N2 (Nat.iter (asks_preset l) P text)).
  split; [|split; [|reflexivity]].
  - destruct (existsb o_preset l) eqn:E; cbn [if_asked].
    + assert (Q : asks_preset l > 0).
      { apply existsb_exists in E as (x & I & E). unfold asks_preset. assert (J : In x (filter o_preset l)) by (apply filter_In; auto). destruct (filter o_preset l); [destruct J|cbn; lia]. }
      rewrite iter_P by exact Q. apply P_pointwise. reflexivity.
    + assert (Q : asks_preset l = 0).
      { unfold asks_preset. destruct (filter o_preset l) as [|x q] eqn:Z; [reflexivity|]. assert (J : In x (filter o_preset l)) by (rewrite Z; left; reflexivity).
        apply filter_In in J as [J1 J2]. assert (X : existsb o_preset l = true) by (apply existsb_exists; exists x; auto). congruence. }
      rewrite Q. reflexivity.
  - set (s := Nat.iter (asks_preset l) P text). destruct (asks_neologdn l) as [|[|n]]; [apply (iter_repeatedly 0)|apply (iter_repeatedly 1)|].
    replace (Nat.min 2 (S (S n))) with 2 by lia. rewrite (iter_N (S (S n)) s) by lia. apply (iter_repeatedly 2).
Qed.
Print Assumptions C114_built_in.

(** ** What a pipe loses *)
(** A second run that changes nothing loses what is behind a line feed, and the failure of the first. *)
Theorem C114_unchanged_refuted : exists r r' stdin b b', process (r_order r) (r_world r) (r_args r) stdin = Output b /\
  (forall t, treats r' (Opts None false false false) t t) /\ accepted (r_args r') (Opts None false false false) /\ chain r [r'] stdin = Output b' /\ b' <> b.
Proof.
  set (w := search_world [] "/h" "/d"). exists (Run no_order w [[97; 10; 98]%N] [] []), (Run no_order w [] [] []), (FileBytes []), [97; 10; 98; 10]%N, [97; 10]%N.
  split; [vm_compute; reflexivity|]. split.
  { intros t. exists [], t, t. split; [intros o; reflexivity|]. split; [exists no_order; reflexivity|]. split; [reflexivity|]. split; [reflexivity|discriminate]. }
  split; [apply parse_args_iff; reflexivity|]. split; [vm_compute; reflexivity|discriminate].
Qed.
Print Assumptions C114_unchanged_refuted.
Theorem C114_status_refuted : exists r r' stdin, exit_status (r_order r) (r_world r) (r_args r) stdin <> 0%N /\
  chain_status r [r'] stdin = 0%N /\ chain r [r'] stdin = Output [0x0A%N].
Proof.
  set (w := search_world [] "/h" "/d"). exists (Run no_order w [lit "-p"; lit "-p"] [] []), (Run no_order w [] [] []), (FileBytes []).
  split; [vm_compute; discriminate|]. split; vm_compute; reflexivity.
Qed.
Print Assumptions C114_status_refuted.
(** The preset, then neologdn, on full-width A and a tilde; and the message of the first run as the text of the second. *)
Example C114_case :
  let w := search_world [] "/h" "/d" in
  bare (Run no_order w [lit "-p"] [] []) (Opts None false true false) /\ one_line (Run no_order w [] [] []) /\
  chain (Run no_order w [lit "-p"] [] []) [Run no_order w [lit "-n"] [] []] (FileBytes (encode [0xFF21; 0x7E]%N)) = Output [0x41; 0x0A]%N /\
  chain (Run no_order w [lit "-p"] (lit "bad") []) [Run no_order w [lit "-n"] [] []] (FileBytes [0xFF%N]) = Output (lit "error:bad" ++ [0x0A%N]).
Proof.
  cbn zeta. split; [split; [apply parse_args_iff; reflexivity|split; [intros o; reflexivity|discriminate]]|]. split.
  { split; [intros s E; discriminate E|]. intros o cfg E. assert (cfg = []) by (cbn in E; congruence). subst cfg. split; [constructor|intros m []]. }
  split; vm_compute; reflexivity.
Qed.
