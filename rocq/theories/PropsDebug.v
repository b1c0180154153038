(** Property C96: the text of the debug log. *)
From Coq Require Import String.
From Verif Require Import Base BaseFacts Utf8 StrOps Position Corr Table Charset Converter Eliminator Reducer Dotted Ligature TrimMod Neologdn ModifierKind PathModel Yaml File ChanomaModel
  Configuration Cli Csv Process Log DebugText CharSpec Spec NeoSpec CharsetFacts FileSpec PathSpec ConfigSpec BinSpec ProcessSpec PathProps YamlProps ConfigProps BinProps
  CsvProps ProcessProps PropsConverter PropsNeo PropsPipeline PropsFile PropsConfig PropsBin PropsProcess PropsLog PropsEq DebugSpec DebugProps.
Local Open Scope string_scope.
Local Open Scope list_scope.

(** ** Specification *)
(** The same line: the same path and answer; the same paths; the same text and positions of a modifier with the same contents. *)
Definition same_event (e e' : event) : Prop :=
  match e, e' with
  | LEnv p ex, LEnv p' ex' => p = p' /\ ex = ex'
  | LFiles ps, LFiles ps' => ps = ps'
  | LRecord r, LRecord r' => r_text r = r_text r' /\ r_positions r = r_positions r' /\ same_contents (r_kind r) (r_kind r')
  | _, _ => False
  end.
(** [ls] is the text of the events, in some iteration order of the hash containers. *)
Definition log_text (sh : char -> bool) (sq : bool) (es : list event) (ls : list str) : Prop :=
  Forall2 (fun e l => exists o, l = event_line sh sq o e) es ls.

(** ** Lemmas: texts that end where their own end is *)
Definition delim {A} (f : A -> str) : Prop := forall a b r r', f a ++ r = f b ++ r' -> a = b /\ r = r'.
Lemma app_same (w r r' : str) : w ++ r = w ++ r' -> r = r'.
Proof. apply app_inv_head. Qed.
(** *** Numbers *)
Definition is_digit (c : char) : bool := (N.leb 48 c && N.leb c 57) || (N.leb 97 c && N.leb c 102).
Definition no_digit (r : str) : Prop := match r with [] => True | c :: _ => is_digit c = false end.
Definition digit_value (c : char) : N := if N.leb c 57 then (c - 48)%N else (c - 87)%N.
Definition value_of (b : N) (s : str) : N := fold_left (fun v c => (v * b + digit_value c)%N) s 0%N.
Lemma digit_char_ok d : (d < 16)%N -> is_digit (digit_char d) = true /\ digit_value (digit_char d) = d.
Proof.
  intros H. unfold digit_char, is_digit, digit_value. destruct (N.ltb_spec d 10).
  - split; [apply orb_true_iff; left; apply andb_true_iff; split; apply N.leb_le; lia|]. destruct (N.leb_spec (48 + d) 57); lia.
  - split; [apply orb_true_iff; right; apply andb_true_iff; split; apply N.leb_le; lia|]. destruct (N.leb_spec (87 + d) 57); lia.
Qed.
Lemma digits_fuel_ok b f : (2 <= b <= 16)%N -> forall n, (n < 2 ^ N.of_nat f)%N -> f > 0 ->
  value_of b (digits_fuel b f n) = n /\ forallb is_digit (digits_fuel b f n) = true.
Proof.
  intros Hb. induction f as [|f IH]; intros n Hn Hf; [lia|]. cbn [digits_fuel]. destruct (N.ltb_spec n b) as [L|L].
  - destruct (digit_char_ok n ltac:(lia)) as [D1 D2]. cbn [forallb value_of fold_left]. rewrite D1, D2. split; [lia|reflexivity].
  - destruct (digit_char_ok (n mod b)%N) as [D1 D2]; [pose proof (N.mod_upper_bound n b ltac:(lia)); lia|].
    assert (Hq : (n / b < 2 ^ N.of_nat f)%N).
    { apply N.div_lt_upper_bound; [lia|]. replace (N.of_nat (S f)) with (N.succ (N.of_nat f)) in Hn by lia. rewrite N.pow_succ_r' in Hn.
      eapply N.lt_le_trans; [exact Hn|]. apply N.mul_le_mono_r. lia. }
    assert (Hf' : f > 0).
    { destruct f; [|lia]. cbn in Hn. lia. }
    destruct (IH _ Hq Hf') as [V F]. split.
    + unfold value_of in *. rewrite fold_left_app. cbn [fold_left]. rewrite V, D2. rewrite (N.div_mod' n b) at 3. lia.
    + rewrite forallb_app, F. cbn [forallb]. rewrite D1. reflexivity.
Qed.
Lemma digits_ok b n : (2 <= b <= 16)%N -> value_of b (digits b n) = n /\ forallb is_digit (digits b n) = true.
Proof.
  intros Hb. apply digits_fuel_ok; [exact Hb| |lia]. replace (N.of_nat (S (N.to_nat (N.size n)))) with (N.succ (N.size n)) by lia.
  rewrite N.pow_succ_r'. pose proof (N.size_gt n). lia.
Qed.
Lemma span_digits w w' : forall r r', forallb is_digit w = true -> forallb is_digit w' = true -> no_digit r -> no_digit r' ->
  w ++ r = w' ++ r' -> w = w' /\ r = r'.
Proof.
  revert w'. induction w as [|c w IH]; intros [|c' w'] r r' Hw Hw' Hr Hr' E; cbn [app forallb] in *.
  - auto.
  - subst r. apply andb_true_iff in Hw' as [D _]. cbn in Hr. congruence.
  - subst r'. apply andb_true_iff in Hw as [D _]. cbn in Hr'. congruence.
  - injection E as -> E. apply andb_true_iff in Hw as [_ Hw], Hw' as [_ Hw']. destruct (IH _ _ _ Hw Hw' Hr Hr' E) as [-> ->]. auto.
Qed.
Lemma digits_delim b n m r r' : (2 <= b <= 16)%N -> no_digit r -> no_digit r' -> digits b n ++ r = digits b m ++ r' -> n = m /\ r = r'.
Proof.
  intros Hb Hr Hr' E. destruct (digits_ok b n Hb) as [V1 D1], (digits_ok b m Hb) as [V2 D2].
  destruct (span_digits _ _ _ _ D1 D2 Hr Hr' E) as [Ew Er]. split; [congruence|exact Er].
Qed.
Lemma show_nat_delim n m r r' : no_digit r -> no_digit r' -> show_nat n ++ r = show_nat m ++ r' -> n = m /\ r = r'.
Proof. intros Hr Hr' E. apply digits_delim in E as [E ->]; try assumption; [split; [lia|reflexivity]|lia]. Qed.

(** *** Texts *)
Opaque digits.
(** The letter after the backslash of a named escape. *)
Definition named (c k : char) : Prop := In (c, k) [(0, 48); (9, 116); (13, 114); (10, 110); (92, 92); (34, 34); (39, 39)]%N.
Lemma escape_cases sh sq dq c :
  (exists k, escape_debug sh sq dq c = [92; k]%N /\ named c k /\ (c = 34%N -> dq = true) /\ (c = 39%N -> sq = true)) \/
  (escape_debug sh sq dq c = [c] /\ c <> 92%N /\ sh c = true /\ ~ In c [0; 9; 13; 10]%N /\ (dq = true -> c <> 34%N) /\ (sq = true -> c <> 39%N)) \/
  escape_debug sh sq dq c = [92; 117; 123]%N ++ digits 16 c ++ [125%N].
Proof.
  unfold escape_debug, named.
  destruct (N.eqb_spec c 0) as [->|N0]; [left; exists 48%N; cbn; intuition discriminate|].
  destruct (N.eqb_spec c 9) as [->|N9]; [left; exists 116%N; cbn; intuition discriminate|].
  destruct (N.eqb_spec c 13) as [->|N13]; [left; exists 114%N; cbn; intuition discriminate|].
  destruct (N.eqb_spec c 10) as [->|N10]; [left; exists 110%N; cbn; intuition discriminate|].
  destruct (N.eqb_spec c 92) as [->|N92]; [left; exists 92%N; cbn; intuition discriminate|].
  destruct (N.eqb_spec c 34) as [->|N34]; cbn [andb].
  - destruct dq; [left; exists 34%N; cbn; intuition discriminate|]. change (N.eqb 34 39) with false. cbn [andb].
    destruct (sh 34%N) eqn:S; [right; left|right; right; reflexivity]. cbn; intuition (try discriminate).
  - destruct (N.eqb_spec c 39) as [->|N39]; cbn [andb].
    + destruct sq; [left; exists 39%N; cbn; intuition discriminate|].
      destruct (sh 39%N) eqn:S; [right; left|right; right; reflexivity]. cbn; intuition (try discriminate).
    + destruct (sh c) eqn:S; [right; left|right; right; reflexivity]. cbn; intuition congruence.
Qed.
Lemma named_det c c' k : named c k -> named c' k -> c = c'.
Proof.
  unfold named. cbn. intros H H'.
  destruct H as [H|[H|[H|[H|[H|[H|[H|[]]]]]]]], H' as [H'|[H'|[H'|[H'|[H'|[H'|[H'|[]]]]]]]]; congruence.
Qed.
Lemma named_not_u c k : named c k -> k <> 117%N.
Proof. unfold named. cbn. intros H ->. repeat destruct H as [H|H]; try discriminate H; destruct H. Qed.
Lemma escape_delim sh sq dq : delim (escape_debug sh sq dq).
Proof.
  intros c c' r r' E.
  destruct (escape_cases sh sq dq c) as [(k & Ec & K & _)|[(Ec & N & _)|Ec]], (escape_cases sh sq dq c') as [(k' & Ec' & K' & _)|[(Ec' & N' & _)|Ec']];
    rewrite Ec, Ec' in E; cbn [app] in E.
  - injection E as -> ->. split; [apply (named_det _ _ _ K K')|reflexivity].
  - injection E as E _. congruence.
  - injection E as E _. destruct (named_not_u _ _ K E).
  - injection E as E _. congruence.
  - injection E as -> ->. auto.
  - injection E as E _. congruence.
  - injection E as E _. symmetry in E. destruct (named_not_u _ _ K' E).
  - injection E as E _. congruence.
  - injection E as E. rewrite <- !app_assoc in E. cbn [app] in E. apply digits_delim in E as [-> E]; [|lia|reflexivity|reflexivity].
    injection E as ->. auto.
Qed.
(** No escape begins with the closing quotation mark. *)
Lemma escape_no_quote sh sq dq c q r : (q = 34%N /\ dq = true) \/ (q = 39%N /\ sq = true) -> forall r', escape_debug sh sq dq c ++ r <> q :: r'.
Proof.
  intros Q r' E. destruct (escape_cases sh sq dq c) as [(k & Ec & _)|[(Ec & _ & _ & _ & N1 & N2)|Ec]]; rewrite Ec in E; cbn [app] in E; injection E as E _.
  - destruct Q as [[-> _]|[-> _]]; discriminate.
  - destruct Q as [[-> D]|[-> D]]; [exact (N1 D E)|exact (N2 D E)].
  - destruct Q as [[-> _]|[-> _]]; discriminate.
Qed.
Lemma show_text_delim sh sq : delim (show_text sh sq).
Proof.
  intros s s' r r' E. unfold show_text in E. cbn [app] in E. injection E as E. rewrite <- !app_assoc in E. revert s' r r' E.
  induction s as [|c s IH]; intros [|c' s'] r r' E; cbn [flat_map] in E; rewrite <- ?app_assoc in E.
  - injection E as ->. auto.
  - exfalso. symmetry in E. revert E. cbn [app]. apply escape_no_quote. auto.
  - exfalso. revert E. cbn [app]. apply escape_no_quote. auto.
  - apply escape_delim in E as [-> E]. apply IH in E as [-> ->]. auto.
Qed.
Lemma show_char_delim sh : delim (show_char sh).
Proof.
  intros c c' r r' E. unfold show_char in E. cbn [app] in E. injection E as E. rewrite <- !app_assoc in E.
  apply escape_delim in E as [-> E]. injection E as ->. auto.
Qed.
(** *** Lists *)
(** No element begins with the closing bracket. *)
Lemma commas_delim {A} (f : A -> str) (z : char) : z <> 44%N -> delim f -> (forall a r r', f a ++ r <> z :: r') ->
  forall l l' r r', commas f l ++ z :: r = commas f l' ++ z :: r' -> l = l' /\ r = r'.
Proof.
  intros Hz Hf Hn. induction l as [|x l IH]; intros [|x' l'] r r' E.
  - injection E as ->. auto.
  - exfalso. symmetry in E. revert E. destruct l'; cbn [commas]; rewrite <- ?app_assoc; apply Hn.
  - exfalso. revert E. destruct l; cbn [commas]; rewrite <- ?app_assoc; apply Hn.
  - assert (C : forall y m, commas f (y :: m) = f y ++ match m with [] => [] | _ => lit ", " ++ commas f m end).
    { intros y [|y' m]; cbn [commas]; [rewrite app_nil_r|]; reflexivity. }
    rewrite (C x l), (C x' l'), <- !app_assoc in E. apply Hf in E as [-> E].
    destruct l as [|y l], l' as [|y' l'].
    + injection E as ->. auto.
    + cbn [app] in E. injection E as E _. congruence.
    + cbn [app] in E. injection E as E _. congruence.
    + rewrite <- !app_assoc in E. apply app_same in E. apply IH in E as [E ->]. rewrite E. auto.
Qed.
Lemma show_list_delim {A} (f : A -> str) : delim f -> (forall a r r', f a ++ r <> 93%N :: r') -> delim (show_list f).
Proof.
  intros Hf Hn l l' r r' E. unfold show_list in E. rewrite <- !app_assoc in E. apply app_same in E.
  exact (commas_delim f 93%N ltac:(discriminate) Hf Hn _ _ _ _ E).
Qed.
Lemma show_set_delim {A} (f : A -> str) : delim f -> (forall a r r', f a ++ r <> 125%N :: r') -> delim (show_set f).
Proof.
  intros Hf Hn l l' r r' E. unfold show_set in E. rewrite <- !app_assoc in E. apply app_same in E.
  exact (commas_delim f 125%N ltac:(discriminate) Hf Hn _ _ _ _ E).
Qed.
Lemma show_entry_delim {A B} (f : A -> str) (g : B -> str) : delim f -> delim g -> delim (show_entry f g).
Proof.
  intros Hf Hg [a b] [a' b'] r r' E. unfold show_entry in E. cbn [fst snd] in E. rewrite <- !app_assoc in E.
  apply Hf in E as [-> E]. apply app_same in E. apply Hg in E as [-> ->]. auto.
Qed.
(** *** Modifiers, positions, records *)
Ltac peel := rewrite <- ?app_assoc in *.
Lemma show_converter_delim sh : delim (show_converter sh).
Proof.
  intros x x' r r' E. unfold show_converter in E. peel. apply app_same in E. apply show_set_delim in E as [-> E].
  - apply app_same in E. auto.
  - apply show_entry_delim; apply show_char_delim.
  - intros a r0 r1. discriminate.
Qed.
Lemma show_eliminator_delim sh : delim (show_eliminator sh).
Proof.
  intros x x' r r' E. unfold show_eliminator in E. peel. apply app_same in E. apply show_set_delim in E as [-> E].
  - apply app_same in E. auto.
  - apply show_char_delim.
  - intros a r0 r1. discriminate.
Qed.
Lemma show_reducer_delim sh : delim (show_reducer sh).
Proof.
  intros x x' r r' E. unfold show_reducer in E. peel. apply app_same in E. apply show_char_delim in E as [-> E]. apply app_same in E. auto.
Qed.
Lemma show_ligature_delim sh : delim (show_ligature sh).
Proof.
  intros x x' r r' E. unfold show_ligature in E. peel. apply app_same in E. apply show_set_delim in E as [-> E].
  - apply app_same in E. auto.
  - apply show_entry_delim; apply show_text_delim.
  - intros a r0 r1. discriminate.
Qed.
Lemma show_neologdn_delim sh : delim (show_neologdn sh).
Proof.
  intros [c k e l] [c' k' e' l'] r r' E. unfold show_neologdn in E. cbn [neo_conv neo_red neo_elim neo_lig] in E. peel.
  apply app_same in E. apply show_converter_delim in E as [-> E]. apply app_same in E. apply show_reducer_delim in E as [-> E].
  apply app_same in E. apply show_eliminator_delim in E as [-> E]. apply app_same in E. apply show_ligature_delim in E as [-> E].
  apply app_same in E. auto.
Qed.
Lemma show_modifier_delim sh : delim (show_modifier sh).
Proof.
  intros m m' r r' E. destruct m as [x|x|x| |x| |x], m' as [x'|x'|x'| |x'| |x']; cbn [show_modifier] in E; peel;
    try (exfalso; revert E; cbn; discriminate).
  - apply app_same in E. apply show_converter_delim in E as [-> E]. apply app_same in E. auto.
  - apply app_same in E. apply show_eliminator_delim in E as [-> E]. apply app_same in E. auto.
  - apply app_same in E. apply show_reducer_delim in E as [-> E]. apply app_same in E. auto.
  - apply app_same in E. auto.
  - apply app_same in E. apply show_ligature_delim in E as [-> E]. apply app_same in E. auto.
  - apply app_same in E. auto.
  - apply app_same in E. apply show_neologdn_delim in E as [-> E]. apply app_same in E. auto.
Qed.
Lemma show_position_delim sh : delim (show_position sh).
Proof.
  intros [f t i l ui ul] [f' t' i' l' ui' ul'] r r' E. unfold show_position in E. cbn [p_from p_to p_index p_length p_utf8_index p_utf8_length] in E. peel.
  apply app_same in E. apply show_text_delim in E as [-> E]. apply app_same in E. apply show_text_delim in E as [-> E].
  apply app_same in E. apply show_nat_delim in E as [-> E]; [|reflexivity|reflexivity].
  apply app_same in E. apply show_nat_delim in E as [-> E]; [|reflexivity|reflexivity].
  apply app_same in E. apply show_nat_delim in E as [-> E]; [|reflexivity|reflexivity].
  apply app_same in E. apply show_nat_delim in E as [-> E]; [|reflexivity|reflexivity].
  apply app_same in E. auto.
Qed.
Lemma record_line_same sh o o' x y r r' : show_record sh o x ++ r = show_record sh o' y ++ r' ->
  r_text x = r_text y /\ r_positions x = r_positions y /\ arranged o (r_kind x) = arranged o' (r_kind y) /\ r = r'.
Proof.
  unfold show_record. peel. intros E. apply app_same in E. apply show_modifier_delim in E as [K E]. apply app_same in E.
  apply show_text_delim in E as [T E]. apply app_same in E. apply show_list_delim in E as [P E].
  - apply app_same in E. auto.
  - apply show_position_delim.
  - intros a r0 r1. discriminate.
Qed.
Lemma hash_iter_same {A} o o' (l l' : list A) : hash_iter o l = hash_iter o' l' -> forall x, In x l <-> In x l'.
Proof.
  intros E x. assert (P : Permutation l l') by (rewrite (hash_iter_perm o l), E; symmetry; apply hash_iter_perm).
  split; apply Permutation_in; [exact P|symmetry; exact P].
Qed.
Lemma arranged_same o o' m m' : arranged o m = arranged o' m' -> same_contents m m'.
Proof.
  destruct m, m'; cbn [arranged same_contents]; try discriminate; try tauto; intros E.
  - assert (E' : hash_iter o x = hash_iter o' x0) by (exact (f_equal (fun m => match m with MConv x => x | _ => [] end) E)).
    intros c t. apply (hash_iter_same _ _ _ _ E').
  - assert (E' : hash_iter o x = hash_iter o' x0) by (exact (f_equal (fun m => match m with MElim x => x | _ => [] end) E)).
    intros c. apply (hash_iter_same _ _ _ _ E').
  - congruence.
  - assert (E' : hash_iter o x = hash_iter o' x0) by (exact (f_equal (fun m => match m with MLig x => x | _ => [] end) E)).
    intros k v. apply (hash_iter_same _ _ _ _ E').
Qed.

(** ** Theorems *)
(** The message of a log line determines what it reports. *)
Theorem C96_line_read : forall sh sq o o' e e', event_line sh sq o e = event_line sh sq o' e' -> same_event e e'.
Proof.
  intros sh sq o o' e e' E. destruct e as [p ex|ps|x], e' as [p' ex'|ps'|x']; cbn [event_line same_event] in *;
    try (exfalso; revert E; cbn; discriminate).
  - apply app_same in E. apply show_text_delim in E as [-> E]. apply app_same in E. split; [reflexivity|].
    destruct ex, ex'; try reflexivity; discriminate.
  - apply app_same in E. rewrite <- (app_nil_r (show_list _ ps)), <- (app_nil_r (show_list _ ps')) in E. apply show_list_delim in E as [-> _].
    + reflexivity.
    + apply show_text_delim.
    + intros a r r'. discriminate.
  - rewrite <- (app_nil_r (show_record _ _ x)), <- (app_nil_r (show_record _ _ x')) in E. apply record_line_same in E as (T & P & K & _).
    split; [exact T|]. split; [exact P|]. apply (arranged_same _ _ _ _ K).
Qed.
Print Assumptions C96_line_read.
(** Hence the whole log determines its events. *)
Theorem C96_log_read : forall sh sq es es' ls, log_text sh sq es ls -> log_text sh sq es' ls -> Forall2 same_event es es'.
Proof.
  intros sh sq es es' ls H. revert es'. induction H as [|e l es ls (o & ->) _ IH]; intros es' H'; inversion H' as [|e' l' es0 ls' (o' & E) H0]; subst; constructor.
  - apply (C96_line_read sh sq o o'), E.
  - apply IH, H0.
Qed.
Print Assumptions C96_log_read.
(** The lines are exactly those of the grammar in DebugSpec. *)
Theorem C96_printed : forall sh sq e t, line sh sq e t <-> exists o, t = event_line sh sq o e.
Proof. exact line_exact. Qed.
Print Assumptions C96_printed.
Theorem C96_grammar_read : forall sh sq e e' t, line sh sq e t -> line sh sq e' t -> same_event e e'.
Proof. intros sh sq e e' t H H'. apply C96_printed in H as (o & ->). apply C96_printed in H' as (o' & E). exact (C96_line_read sh sq o o' e e' E). Qed.
Print Assumptions C96_grammar_read.
(** Two runs of the command line tool with the same log that print something print the same. *)
Theorem C96_output_from_log : forall sh sq ls o w ex args stdin op b o' w' ex' args' stdin' op' b',
  (forall s, w_env w = EnvUnicode s -> unicode s) -> accepted args op -> o_debug op = true -> process o w args stdin = Output b ->
  (forall s, w_env w' = EnvUnicode s -> unicode s) -> accepted args' op' -> o_debug op' = true -> process o' w' args' stdin' = Output b' ->
  log_text sh sq (fst (process_logged o w ex args stdin)) ls -> log_text sh sq (fst (process_logged o' w' ex' args' stdin')) ls -> b = b'.
Proof.
  intros sh sq ls o w ex args stdin op b o' w' ex' args' stdin' op' b' U A D P U' A' D' P' L L'.
  destruct (C80_last_record_printed o w ex args stdin op b U A D P) as (l & r & E & ->).
  destruct (C80_last_record_printed o' w' ex' args' stdin' op' b' U' A' D' P') as (l' & r' & E' & ->).
  pose proof (C96_log_read _ _ _ _ _ L L') as F. rewrite E, E' in F.
  apply Forall2_app_inv_l in F as (f1 & f2 & F1 & F2 & Ef). inversion F2 as [|e1 e2 x1 x2 S F3]; subst. inversion F3; subst.
  apply app_inj_tail in Ef as [_ <-]. cbn [same_event] in S. destruct S as (-> & _). reflexivity.
Qed.
Print Assumptions C96_output_from_log.

(** A message consists of printable ASCII characters and characters shown as they are; in particular it is one line. *)
Definition fine (sh : char -> bool) (c : char) : bool := (N.leb 32 c && N.leb c 126) || (sh c && negb (existsb (N.eqb c) [0; 9; 13; 10]%N)).
Lemma fine_digits sh b n : (2 <= b <= 16)%N -> forallb (fine sh) (digits b n) = true.
Proof.
  intros Hb. destruct (digits_ok b n Hb) as [_ D]. rewrite forallb_forall in *. intros c I. specialize (D c I). unfold is_digit in D. unfold fine.
  apply orb_true_iff. left. apply andb_true_iff. apply orb_true_iff in D as [D|D]; apply andb_true_iff in D as [D1 D2]; apply N.leb_le in D1, D2;
    split; apply N.leb_le; lia.
Qed.
Lemma fine_escape sh sq dq c : forallb (fine sh) (escape_debug sh sq dq c) = true.
Proof.
  destruct (escape_cases sh sq dq c) as [(k & -> & K & _)|[(-> & _ & S & N & _)| ->]].
  - cbn [forallb]. assert (F : fine sh k = true); [|rewrite F; reflexivity].
    unfold named in K. cbn in K. destruct K as [K|[K|[K|[K|[K|[K|[K|[]]]]]]]]; injection K as _ <-; reflexivity.
  - cbn [forallb]. rewrite andb_true_r. unfold fine. rewrite S. apply orb_true_iff. right. cbn [andb]. apply negb_true_iff.
    destruct (existsb (N.eqb c) [0; 9; 13; 10]%N) eqn:X; [|reflexivity]. exfalso. apply N. apply existsb_exists in X as (y & I & Y).
    apply N.eqb_eq in Y. subst y. exact I.
  - rewrite !forallb_app, fine_digits by lia. reflexivity.
Qed.
Lemma fine_flat sh sq dq s : forallb (fine sh) (flat_map (escape_debug sh sq dq) s) = true.
Proof. induction s as [|c s IH]; [reflexivity|]. cbn [flat_map]. rewrite forallb_app, fine_escape, IH. reflexivity. Qed.
Lemma fine_text sh sq s : forallb (fine sh) (show_text sh sq s) = true.
Proof. unfold show_text. rewrite !forallb_app, fine_flat. reflexivity. Qed.
Lemma fine_char sh c : forallb (fine sh) (show_char sh c) = true.
Proof. unfold show_char. rewrite !forallb_app, fine_escape. reflexivity. Qed.
Lemma fine_commas {A} sh (f : A -> str) : (forall a, forallb (fine sh) (f a) = true) -> forall l, forallb (fine sh) (commas f l) = true.
Proof.
  intros H. induction l as [|x l IH]; [reflexivity|]. cbn [commas]. destruct l as [|y l]; [apply H|].
  rewrite !forallb_app, H, IH. reflexivity.
Qed.
Lemma fine_set {A} sh (f : A -> str) l : (forall a, forallb (fine sh) (f a) = true) -> forallb (fine sh) (show_set f l) = true.
Proof. intros H. unfold show_set. rewrite !forallb_app, fine_commas by exact H. reflexivity. Qed.
Lemma fine_list {A} sh (f : A -> str) l : (forall a, forallb (fine sh) (f a) = true) -> forallb (fine sh) (show_list f l) = true.
Proof. intros H. unfold show_list. rewrite !forallb_app, fine_commas by exact H. reflexivity. Qed.
Lemma fine_entry {A B} sh (f : A -> str) (g : B -> str) e : (forall a, forallb (fine sh) (f a) = true) -> (forall b, forallb (fine sh) (g b) = true) ->
  forallb (fine sh) (show_entry f g e) = true.
Proof. intros Hf Hg. unfold show_entry. rewrite !forallb_app, Hf, Hg. reflexivity. Qed.
Lemma fine_converter sh x : forallb (fine sh) (show_converter sh x) = true.
Proof. unfold show_converter. rewrite !forallb_app, fine_set; [reflexivity|]. intros a. apply fine_entry; apply fine_char. Qed.
Lemma fine_eliminator sh x : forallb (fine sh) (show_eliminator sh x) = true.
Proof. unfold show_eliminator. rewrite !forallb_app, fine_set; [reflexivity|]. apply fine_char. Qed.
Lemma fine_reducer sh x : forallb (fine sh) (show_reducer sh x) = true.
Proof. unfold show_reducer. rewrite !forallb_app, fine_char. reflexivity. Qed.
Lemma fine_ligature sh x : forallb (fine sh) (show_ligature sh x) = true.
Proof. unfold show_ligature. rewrite !forallb_app, fine_set; [reflexivity|]. intros a. apply fine_entry; apply fine_text. Qed.
Lemma fine_modifier sh m : forallb (fine sh) (show_modifier sh m) = true.
Proof.
  destruct m as [x|x|x| |x| |x]; cbn [show_modifier]; rewrite ?forallb_app, ?fine_converter, ?fine_eliminator, ?fine_reducer, ?fine_ligature; try reflexivity.
  unfold show_neologdn. rewrite !forallb_app, fine_converter, fine_reducer, fine_eliminator, fine_ligature. reflexivity.
Qed.
Lemma fine_position sh p : forallb (fine sh) (show_position sh p) = true.
Proof. unfold show_position, show_nat. rewrite !forallb_app, !fine_text, !fine_digits by lia. reflexivity. Qed.
Theorem C96_one_line : forall sh sq o e c, In c (event_line sh sq o e) -> (32 <= c <= 126)%N \/ (sh c = true /\ ~ In c [0; 9; 13; 10]%N).
Proof.
  intros sh sq o e c I. assert (F : forallb (fine sh) (event_line sh sq o e) = true).
  { destruct e as [p ex|ps|x]; cbn [event_line].
    - rewrite !forallb_app, fine_text. destruct ex; reflexivity.
    - rewrite forallb_app, fine_list; [reflexivity|]. apply fine_text.
    - unfold show_record. rewrite !forallb_app, fine_modifier, fine_text, fine_list; [reflexivity|]. apply fine_position. }
  rewrite forallb_forall in F. specialize (F c I). unfold fine in F. apply orb_true_iff in F as [F|F]; apply andb_true_iff in F as [F1 F2].
  - left. apply N.leb_le in F1, F2. lia.
  - right. split; [exact F1|]. intros J. apply negb_true_iff in F2. rewrite (proj2 (existsb_exists (N.eqb c) _)) in F2; [discriminate|].
    exists c. split; [exact J|apply N.eqb_refl].
Qed.
Print Assumptions C96_one_line.
(** An intermediate text of such characters is in its line as it is. *)
Theorem C96_text_verbatim : forall sh sq o r,
  Forall (fun c => sh c = true /\ ~ In c [0; 9; 10; 13; 34; 92]%N) (r_text r) ->
  exists a b, event_line sh sq o (LRecord r) = a ++ lit ", text: " ++ [34%N] ++ r_text r ++ [34%N] ++ b.
Proof.
  intros sh sq o r H. assert (E : flat_map (escape_debug sh false true) (r_text r) = r_text r).
  { induction H as [|c s (S & N) _ IH]; [reflexivity|]. cbn [flat_map]. rewrite IH.
    destruct (escape_cases sh false true c) as [(k & _ & K & _ & K')|[(-> & _)|Ec]]; [|reflexivity|].
    - exfalso. unfold named in K. cbn in K, N. destruct K as [K|[K|[K|[K|[K|[K|[K|[]]]]]]]]; injection K as <- <-; try tauto. discriminate (K' eq_refl).
    - exfalso. revert Ec. unfold escape_debug. cbn in N. rewrite S, andb_false_r.
      repeat match goal with |- context [N.eqb c ?k] => destruct (N.eqb_spec c k) as [X|_]; [symmetry in X; tauto|] end. cbn. discriminate. }
  cbn [event_line]. unfold show_record, show_text at 1. rewrite E. rewrite <- !app_assoc.
  eexists (lit "ModifiedRecord { kind: " ++ show_modifier sh (arranged o (r_kind r))), _. rewrite <- !app_assoc. reflexivity.
Qed.
Print Assumptions C96_text_verbatim.
Transparent digits.
(** A trim of two spaces and an elimination, with only ASCII shown as it is. *)
Definition ascii_shown (c : char) : bool := N.leb 32 c && N.leb c 126.
Example C96_case :
  (exists r, modify_with_positions no_order MTrim (lit "  it's " ++ [0x22; 0x3042]%N) = Ok r /\
    event_line ascii_shown false no_order (LRecord r) =
      lit "ModifiedRecord { kind: Trim(Trim), text: ""it's \""\u{3042}"", positions: [Position { from: ""  "", to: """", index: 0, length: 2, utf8_index: 0, utf8_length: 2 }] }") /\
  event_line ascii_shown false no_order (LRecord (Record (MConv [(97, 39); (10, 0x3000)]%N) (lit "x\y") [])) =
    lit "ModifiedRecord { kind: CharacterConverter(CharacterConverter { items_map: {'a': '\'', '\n': '\u{3000}'} }), text: ""x\\y"", positions: [] }" /\
  event_line ascii_shown false no_order (LRecord (Record (MNeo (Neo [] 0x30FC [126] [(lit "a", lit "b")]))%N [] [])) =
    lit "ModifiedRecord { kind: Neologdn(Neologdn { character_converter: CharacterConverter { items_map: {} }, consecutive: ConsecutiveCharacterReducer { c: '\u{30fc}' }, space_eliminater: DottedSpaceEliminator, character_eliminator: CharacterEliminator { chars: {'~'} }, ligature_translator: LigatureTranslator { map: {""a"": ""b""} } }), text: """", positions: [] }" /\
  event_line ascii_shown false no_order (LFiles [lit "/a.csv"; lit "b.yaml"]) = lit "load files: [""/a.csv"", ""b.yaml""]" /\
  map (show_modifier ascii_shown) [MElim [97; 34]; MRed 45; MDot; MLig [([], lit "'")]]%N =
    [lit "CharacterEliminator(CharacterEliminator { chars: {'a', '""'} })"; lit "ConsecutiveCharacterReducer(ConsecutiveCharacterReducer { c: '-' })";
     lit "DottedSpaceEliminator(DottedSpaceEliminator)"; lit "LigatureTranslator(LigatureTranslator { map: {"""": ""'""} })"] /\
  event_line ascii_shown false no_order (LFiles []) = lit "load files: []" /\
  event_line ascii_shown false no_order (LEnv (lit "c'.csv") true) = lit "CHANOMARC: ""c'.csv""; (exists: true)" /\
  event_line ascii_shown true no_order (LEnv (lit "c'.csv") false) = lit "CHANOMARC: ""c\'.csv""; (exists: false)".
Proof. split; [eexists; split; [vm_compute; reflexivity|]|]; repeat split; vm_compute; reflexivity. Qed.
