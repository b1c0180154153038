(** Lemmas for C73 and C74. *)
From Coq Require Import String.
From Verif Require Import Base BaseFacts Utf8 StrOps Yaml File Configuration Cli Csv Process ProcessSpec BinSpec BinProps CsvProps.
Local Open Scope string_scope.
Local Open Scope list_scope.

Lemma flag_of_letter_iff c f : flag_of_letter c = Some f <-> c = letter f.
Proof.
  unfold flag_of_letter. split.
  - destruct (N.eqb_spec c 0x64) as [->|]; [intros [= <-]; reflexivity|].
    destruct (N.eqb_spec c 0x70) as [->|]; [intros [= <-]; reflexivity|].
    destruct (N.eqb_spec c 0x6E) as [->|]; [intros [= <-]; reflexivity|discriminate].
  - intros ->. destruct f; reflexivity.
Qed.
Lemma flag_of_name_iff s f : flag_of_name s = Some f <-> s = name f.
Proof.
  unfold flag_of_name. split.
  - destruct (str_eqb s (lit "debug")) eqn:E1; [apply str_eqb_eq in E1 as ->; intros [= <-]; reflexivity|].
    destruct (str_eqb s (lit "preset")) eqn:E2; [apply str_eqb_eq in E2 as ->; intros [= <-]; reflexivity|].
    destruct (str_eqb s (lit "neologdn")) eqn:E3; [apply str_eqb_eq in E3 as ->; intros [= <-]; reflexivity|discriminate].
  - intros ->. destruct f; reflexivity.
Qed.
Lemma flags_of_letters_iff s : forall fs, flags_of_letters s = Some fs <-> s = map letter fs.
Proof.
  induction s as [|c s IH]; intros fs; cbn [flags_of_letters].
  - destruct fs; split; try discriminate; reflexivity.
  - destruct (flag_of_letter c) as [f|] eqn:E.
    + apply flag_of_letter_iff in E. destruct (flags_of_letters s) as [gs|].
      * split; [intros [= <-]; cbn [map]; rewrite (proj1 (IH gs) eq_refl), E; reflexivity|].
        destruct fs as [|f' fs]; [discriminate|]. cbn [map]. intros [= H1 H2]. rewrite E in H1.
        assert (f = f') by (destruct f, f'; try discriminate H1; reflexivity). apply (IH fs) in H2. congruence.
      * split; [discriminate|]. destruct fs as [|f' fs]; [discriminate|]. cbn [map]. intros [= _ H2]. apply (IH fs) in H2. discriminate.
    + split; [discriminate|]. destruct fs as [|f' fs]; [discriminate|]. cbn [map]. intros [= H1 _].
      apply flag_of_letter_iff in H1. congruence.
Qed.
Lemma letter_not_dash f : letter f <> DASH.
Proof. destruct f; discriminate. Qed.
Lemma name_not_nil f : name f <> [].
Proof. destruct f; discriminate. Qed.
Lemma classify_flags a fs : classify a = WFlags fs <-> flag_word a fs.
Proof.
  unfold flag_word. split.
  - destruct a as [|c r]; cbn [classify]; [discriminate|]. destruct (N.eqb_spec c DASH) as [->|]; [|discriminate].
    destruct r as [|c' r']; [discriminate|]. destruct (N.eqb_spec c' DASH) as [->|N].
    + destruct r' as [|x r']; [discriminate|]. destruct (flag_of_name (x :: r')) as [f|] eqn:E; [|discriminate].
      intros [= <-]. left. exists f. split; [reflexivity|]. apply flag_of_name_iff in E. rewrite <- E. reflexivity.
    + destruct (flags_of_letters (c' :: r')) as [gs|] eqn:E; [|discriminate]. intros [= <-]. right.
      apply flags_of_letters_iff in E. rewrite <- E. split; [|reflexivity]. intros ->. discriminate.
  - intros [(f & -> & ->)|(N & ->)].
    + destruct f; reflexivity.
    + destruct fs as [|f fs]; [contradiction|]. change (lit "-" ++ map letter (f :: fs)) with (DASH :: letter f :: map letter fs).
      unfold classify. rewrite N.eqb_refl, (proj2 (N.eqb_neq _ _) (letter_not_dash f)).
      rewrite (proj2 (flags_of_letters_iff (letter f :: map letter fs) (f :: fs)) eq_refl). reflexivity.
Qed.
Lemma classify_text a s : classify a = WText s <-> plain a /\ s = a.
Proof.
  unfold plain. destruct a as [|c r]; cbn [classify].
  - split; [intros [= <-]; split; [right; discriminate|reflexivity]|intros [_ ->]; reflexivity].
  - destruct (N.eqb_spec c DASH) as [->|N].
    + destruct r as [|c' r']; [split; [intros [= <-]; split; [left; reflexivity|reflexivity]|intros [_ ->]; reflexivity]|].
      assert (P : ~ (DASH :: c' :: r' = lit "-" \/ forall r, DASH :: c' :: r' <> lit "-" ++ r)).
      { intros [H|H]; [discriminate H|]. apply (H (c' :: r')). reflexivity. }
      split; [|intros [H _]; destruct (P H)].
      destruct (N.eqb c' DASH); [destruct r'; [discriminate|]; destruct (flag_of_name _); discriminate|].
      destruct (flags_of_letters _); discriminate.
    + split; [intros [= <-]; split; [right; intros r' [= H _]; exact (N H)|reflexivity]|intros [_ ->]; reflexivity].
Qed.
Lemma classify_escape a : classify a = WEscape <-> a = lit "--".
Proof.
  split; [|intros ->; reflexivity]. destruct a as [|c r]; cbn [classify]; [discriminate|].
  destruct (N.eqb_spec c DASH) as [->|]; [|discriminate]. destruct r as [|c' r']; [discriminate|].
  destruct (N.eqb_spec c' DASH) as [->|].
  - destruct r'; [reflexivity|]. destruct (flag_of_name _); discriminate.
  - destruct (flags_of_letters _); discriminate.
Qed.
Definition join (input : option str) (ts : list str) : option (option str) :=
  match input, ts with i, [] => Some i | None, [t] => Some (Some t) | _, _ => None end.
Lemma parse_escaped r : forall fs input, parse_loop true fs input r = option_map (fun i => (fs, i)) (join input r).
Proof.
  induction r as [|a r IH]; intros fs input; cbn [parse_loop]; [destruct input; reflexivity|].
  destruct input as [t|]; cbn [take_text]; [reflexivity|]. rewrite IH. destruct r; reflexivity.
Qed.
Lemma join_cons input t ts : join input (t :: ts) = match take_text input t with Some i => join i ts | None => None end.
Proof. destruct input; cbn; [reflexivity|]. destruct ts; reflexivity. Qed.
Lemma parse_loop_iff args : forall fs input fs' i', parse_loop false fs input args = Some (fs', i') <->
  exists gs ts, arguments args gs ts /\ fs' = fs ++ gs /\ join input ts = Some i'.
Proof.
  induction args as [|a r IH]; intros fs input fs' i'.
  - cbn [parse_loop]. split.
    + intros [= <- <-]. exists [], []. split; [constructor|]. split; [symmetry; apply app_nil_r|destruct input; reflexivity].
    + intros (gs & ts & A & -> & J). inversion A; subst. rewrite app_nil_r. destruct input; cbn in J; congruence.
  - cbn [parse_loop]. split.
    + destruct (classify a) as [gs|s| |] eqn:E; [| | |discriminate].
      * apply classify_flags in E. intros H. apply IH in H as (gs' & ts & A & -> & J). exists (gs ++ gs'), ts.
        split; [constructor; assumption|]. split; [rewrite app_assoc; reflexivity|exact J].
      * apply classify_text in E as [P ->]. intros H. destruct (take_text input a) as [i|] eqn:T; [|discriminate].
        apply IH in H as (gs & ts & A & -> & J). exists gs, (a :: ts). split; [constructor; assumption|]. split; [reflexivity|].
        rewrite join_cons, T. exact J.
      * apply classify_escape in E. subst a. rewrite parse_escaped. intros H. destruct (join input r) as [i|] eqn:J; [|discriminate].
        injection H as <- <-. exists [], r. split; [constructor|]. split; [symmetry; apply app_nil_r|exact J].
    + intros (gs & ts & A & -> & J). inversion A as [|a0 gs0 r0 gs1 ts0 F A'|a0 r0 gs0 ts0 P A'|r0]; subst.
      * rewrite (proj2 (classify_flags a gs0) F). apply IH. exists gs1, ts. split; [exact A'|]. split; [rewrite app_assoc; reflexivity|exact J].
      * rewrite (proj2 (classify_text a a) (conj P eq_refl)). rewrite join_cons in J. destruct (take_text input a) as [i|]; [|discriminate].
        apply IH. exists gs, ts0. auto.
      * change (classify (lit "--")) with WEscape. cbv iota. rewrite parse_escaped, J, app_nil_r. reflexivity.
Qed.
Lemma count_In f fs : 0 < count_flag f fs <-> In f fs.
Proof.
  unfold count_flag. induction fs as [|g fs IH]; cbn [filter]; [cbn; split; [lia|contradiction]|].
  cbn [In]. rewrite <- IH. destruct f, g; cbn [flag_eqb length]; split; try lia; intros; intuition (try discriminate; try lia).
Qed.
Lemma count_NoDup fs : (forall f, count_flag f fs <= 1) <-> NoDup fs.
Proof.
  induction fs as [|g fs IH]; [split; [constructor|intros _ f; unfold count_flag; cbn; lia]|]. split.
  - intros H. constructor.
    + intros I. apply count_In in I. specialize (H g). unfold count_flag in *. cbn [filter] in H.
      replace (flag_eqb g g) with true in H by (destruct g; reflexivity). cbn [length] in H. lia.
    + apply IH. intros f. specialize (H f). unfold count_flag in *. cbn [filter] in H. destruct (flag_eqb f g); cbn [length] in H; lia.
  - intros H f. inversion H as [|? ? N D]; subst. apply IH with (f := f) in D. unfold count_flag in *. cbn [filter].
    destruct (flag_eqb f g) eqn:E; [|exact D]. assert (f = g) by (destruct f, g; try discriminate E; reflexivity). subst.
    rewrite <- count_In in N. unfold count_flag in N. cbn [length]. lia.
Qed.
Lemma validate_iff fs input op : validate fs input = Some op <->
  NoDup fs /\ o_input op = input /\ (o_debug op = true <-> In FDebug fs) /\ (o_preset op = true <-> In FPreset fs) /\ (o_neologdn op = true <-> In FNeologdn fs).
Proof.
  unfold validate. rewrite <- count_NoDup, <- !count_In, <- !Nat.ltb_lt.
  destruct ((Nat.leb (count_flag FDebug fs) 1) && (Nat.leb (count_flag FPreset fs) 1) && (Nat.leb (count_flag FNeologdn fs) 1))%bool eqn:E.
  - rewrite !andb_true_iff, !Nat.leb_le in E. destruct E as [[E1 E2] E3]. split.
    + intros [= <-]. split; [intros []; assumption|]. cbn. split; [reflexivity|]. split; [reflexivity|]. split; reflexivity.
    + intros (_ & H & H1 & H2 & H3). f_equal. destruct op as [i d p n]. cbn in *.
      apply eq_true_iff_eq in H1, H2, H3. congruence.
  - split; [discriminate|]. intros (H & _). exfalso. apply (eq_true_false_abs _ (eq_refl true)).
    rewrite <- E. rewrite !(proj2 (Nat.leb_le _ _)) by apply H. reflexivity.
Qed.
Lemma parse_args_iff args op : parse_args args = Some op <-> accepted args op.
Proof.
  unfold parse_args, accepted. split.
  - destruct (parse_loop false [] None args) as [[fs i]|] eqn:E; [|discriminate]. intros H.
    apply parse_loop_iff in E as (gs & ts & A & -> & J). cbn [app] in H. apply validate_iff in H as (D & I & F). exists gs, ts.
    split; [exact A|]. split; [exact D|]. split; [|exact F]. rewrite I. destruct ts as [|t [|]]; cbn in J; congruence.
  - intros (fs & ts & A & D & I & F).
    assert (J : join None ts = Some (o_input op)) by (destruct ts as [|t [|]]; cbn; [congruence|congruence|contradiction]).
    rewrite (proj2 (parse_loop_iff args [] None fs (o_input op))) by (exists fs, ts; auto). apply validate_iff. auto.
Qed.
Lemma flag_word_not_escape fs : ~ flag_word (lit "--") fs.
Proof. intros H. apply classify_flags in H. discriminate. Qed.
Lemma plain_not_escape : ~ plain (lit "--").
Proof. intros H. pose proof (proj2 (classify_text _ _) (conj H eq_refl)). discriminate. Qed.
Lemma arguments_perm args args' : Permutation args args' -> forall fs ts, ~ In (lit "--") args -> arguments args fs ts ->
  exists fs' ts', arguments args' fs' ts' /\ Permutation fs fs' /\ Permutation ts ts'.
Proof.
  induction 1 as [|x l l' P IH|x y l|l l' l'' P1 IH1 P2 IH2]; intros fs ts N A.
  - exists fs, ts. auto.
  - inversion A as [|a0 gs0 r0 gs1 ts0 F A'|a0 r0 gs0 ts0 Q A'|r0]; subst; [| |destruct N; left; reflexivity].
    + destruct (IH gs1 ts) as (fs' & ts' & A1 & P1 & P2); [intros I; apply N; right; exact I|exact A'|].
      exists (gs0 ++ fs'), ts'. split; [apply arg_flags; assumption|]. split; [apply Permutation_app_head, P1|exact P2].
    + destruct (IH fs ts0) as (fs' & ts' & A1 & P1 & P2); [intros I; apply N; right; exact I|exact A'|].
      exists fs', (x :: ts'). split; [apply arg_text; assumption|]. split; [exact P1|constructor; exact P2].
  - inversion A as [|a0 gs0 r0 gs1 ts0 F A'|a0 r0 gs0 ts0 Q A'|r0]; subst; [| |destruct N; left; reflexivity];
      (inversion A' as [|a1 gs2 r1 gs3 ts1 F' A''|a1 r1 gs2 ts1 Q' A''|r1]; subst; [| |destruct N; right; left; reflexivity]).
    + exists (gs2 ++ gs0 ++ gs3), ts. split; [apply arg_flags; [exact F'|apply arg_flags; assumption]|]. split; [|reflexivity].
      rewrite !app_assoc. apply Permutation_app_tail, Permutation_app_comm.
    + exists (gs0 ++ gs1), (x :: ts1). split; [|split; reflexivity]. apply arg_text; [exact Q'|]. apply arg_flags; assumption.
    + exists (gs2 ++ gs3), (y :: ts0). split; [|split; reflexivity]. apply arg_flags; [exact F'|]. apply arg_text; assumption.
    + exists fs, (x :: y :: ts1). split; [apply arg_text; [exact Q'|apply arg_text; assumption]|]. split; [reflexivity|constructor].
  - destruct (IH1 fs ts N A) as (fs' & ts' & A' & P3 & P4).
    destruct (IH2 fs' ts') as (fs'' & ts'' & A'' & P5 & P6); [intros I; apply N; eapply Permutation_in; [symmetry; exact P1|exact I]|exact A'|].
    exists fs'', ts''. split; [exact A''|]. split; eapply Permutation_trans; eassumption.
Qed.
Lemma accepted_perm args args' op : Permutation args args' -> ~ In (lit "--") args -> accepted args op -> accepted args' op.
Proof.
  intros P N (fs & ts & A & D & I & F1 & F2 & F3). destruct (arguments_perm _ _ P fs ts N A) as (fs' & ts' & A' & P1 & P2).
  exists fs', ts'. split; [exact A'|]. split; [eapply Permutation_NoDup; eassumption|]. split.
  - destruct ts as [|t [|]]; [apply Permutation_nil in P2; subst; exact I|apply Permutation_length_1_inv in P2; subst; exact I|contradiction].
  - assert (Q : forall f, In f fs <-> In f fs') by (intros f; split; apply Permutation_in; [|symmetry]; exact P1). rewrite <- !Q. auto.
Qed.

(** ** Standard input *)
Lemma line_bytes_nl line rest : ~ In 0x0A%N line -> line_bytes (line ++ 0x0A%N :: rest) = line ++ [0x0A%N].
Proof.
  induction line as [|x l IH]; intros N; [reflexivity|]. cbn [app line_bytes].
  destruct (N.eqb_spec x NEWLINE) as [->|]; [destruct N; left; reflexivity|]. rewrite IH; [reflexivity|intros H; apply N; right; exact H].
Qed.
Lemma line_bytes_all line : ~ In 0x0A%N line -> line_bytes line = line.
Proof.
  induction line as [|x l IH]; intros N; [reflexivity|]. cbn [line_bytes].
  destruct (N.eqb_spec x NEWLINE) as [->|]; [destruct N; left; reflexivity|]. rewrite IH; [reflexivity|intros H; apply N; right; exact H].
Qed.
Lemma split_nl b : (exists line rest, ~ In 0x0A%N line /\ b = line ++ 0x0A%N :: rest) \/ ~ In 0x0A%N b.
Proof.
  induction b as [|x b [(line & rest & N & ->)|N]].
  - right. intros [].
  - left. destruct (N.eq_dec x 0x0A) as [->|D]; [exists [], (line ++ 0x0A%N :: rest); auto|].
    exists (x :: line), rest. split; [|reflexivity]. intros [H|H]; [exact (D H)|exact (N H)].
  - destruct (N.eq_dec x 0x0A) as [->|D]; [left; exists [], b; split; [intros []|reflexivity]|right]. intros [H|H]; [exact (D H)|exact (N H)].
Qed.

Lemma high_no_nl l : Forall (fun b => 0x80 <= b)%N l -> ~ In 0x0A%N l.
Proof. intros F I. rewrite Forall_forall in F. specialize (F _ I). cbv beta in F. lia. Qed.
Lemma encode_nl s : In 0x0A%N (encode s) <-> In 0x0A%N s.
Proof.
  induction s as [|c s IH]; [reflexivity|]. change (encode (c :: s)) with (encode_char c ++ encode s). rewrite in_app_iff, IH.
  cbn [In]. destruct (enc_bytes c) as [[L ->]|(G & _ & F)].
  - cbn [In]. tauto.
  - pose proof (high_no_nl _ F) as H. split; [intros [I|I]; [destruct (H I)|right; exact I]|].
    intros [E|I]; [subst c; exfalso; lia|right; exact I].
Qed.
Lemma encode_snoc_nl text : encode (text ++ [0x0A%N]) = encode text ++ [0x0A%N].
Proof. rewrite encode_app. reflexivity. Qed.
Lemma stdin_text_line f line : stdin_line f line -> stdin_text f = decode (line ++ [0x0A%N]) \/ stdin_text f = decode line.
Proof.
  intros [N [(rest & [->| ->])| ->]]; cbn [stdin_text].
  - left. rewrite line_bytes_nl by exact N. reflexivity.
  - left. replace (mem N.eqb NEWLINE (line ++ 0x0A%N :: rest)) with true.
    + rewrite line_bytes_nl by exact N. reflexivity.
    + symmetry. apply existsb_exists. exists 0x0A%N. split; [apply in_app_iff; right; left; reflexivity|reflexivity].
  - right. rewrite line_bytes_all by exact N. reflexivity.
Qed.
Lemma stdin_line_or f : (exists line, stdin_line f line) \/ (stdin_text f = None /\ forall line, ~ stdin_line f line).
Proof.
  destruct f as [b|b]; destruct (split_nl b) as [(line & rest & N & ->)|N].
  - left. exists line. split; [exact N|]. left. exists rest. auto.
  - left. exists b. split; [exact N|]. right. reflexivity.
  - left. exists line. split; [exact N|]. left. exists rest. auto.
  - right. split.
    + cbn [stdin_text]. replace (mem N.eqb NEWLINE b) with false; [reflexivity|]. symmetry. apply not_true_iff_false. intros H.
      apply existsb_exists in H as (x & I & E). apply N.eqb_eq in E. subst x. exact (N I).
    + intros line [_ [(rest & [H|H])|H]]; [discriminate|injection H as ->|discriminate]. apply N, in_app_iff. right. left. reflexivity.
Qed.
(** The text on standard input is the decoded first line. *)
Lemma stdin_text_some f s : stdin_text f = Some s -> exists text, first_line s text /\ valid_str text /\ stdin_line f (encode text).
Proof.
  intros H. destruct (stdin_line_or f) as [(line & L)|(E & _)]; [|congruence]. pose proof (proj1 L) as N.
  destruct (stdin_text_line f line L) as [E|E]; rewrite E in H; apply decode_iff in H as [V D].
  - assert (I : In 0x0A%N s) by (apply encode_nl; rewrite D; apply in_app_iff; right; left; reflexivity).
    destruct (split_nl s) as [(text & rest & N' & ->)|N']; [|destruct (N' I)].
    assert (D' : encode text = line).
    { rewrite encode_app in D. change (0x0A%N :: rest) with ([0x0A%N] ++ rest) in D. rewrite encode_app in D.
      change (encode [0x0A%N]) with [0x0A%N] in D. cbn [app] in D.
      pose proof (f_equal line_bytes D) as Q. rewrite (line_bytes_nl (encode text)), (line_bytes_nl line []) in Q.
      - apply app_inj_tail in Q. exact (proj1 Q).
      - exact N.
      - rewrite encode_nl. exact N'. }
    exists text. split; [split; [exact N'|right; exists rest; reflexivity]|]. split; [apply valid_app in V; tauto|]. rewrite D'. exact L.
  - subst line. exists s. split; [split; [rewrite <- encode_nl; exact N|left; reflexivity]|]. split; [exact V|exact L].
Qed.
Lemma stdin_line_text f text : valid_str text -> stdin_line f (encode text) -> exists s, stdin_text f = Some s /\ first_line s text.
Proof.
  intros V L. assert (N : ~ In 0x0A%N text) by (rewrite <- encode_nl; exact (proj1 L)).
  destruct (stdin_text_line f _ L) as [E|E]; rewrite E.
  - exists (text ++ [0x0A%N]). split; [|split; [exact N|right; exists []; reflexivity]]. apply decode_iff.
    split; [apply valid_app; split; [exact V|repeat constructor]|apply encode_snoc_nl].
  - exists text. split; [apply decode_iff; auto|]. split; [exact N|left; reflexivity].
Qed.
Lemma stdin_line_unique f l l' : stdin_line f l -> stdin_line f l' -> l = l'.
Proof.
  assert (K : forall b, ~ In 0x0A%N b -> forall b', ~ In 0x0A%N b' -> forall r r', b ++ 0x0A%N :: r = b' ++ 0x0A%N :: r' -> b = b').
  { intros b N b' N' r r' H. pose proof (f_equal line_bytes H) as Q. rewrite !line_bytes_nl in Q by assumption. apply app_inj_tail in Q. exact (proj1 Q). }
  assert (I : forall b r, In 0x0A%N (b ++ 0x0A%N :: r)) by (intros; apply in_app_iff; right; left; reflexivity).
  intros [N [(r & [->| ->])| ->]] [N' [(r' & [H|H])|H]]; try discriminate H; injection H as H.
  - exact (K _ N _ N' _ _ H).
  - subst. destruct (N' (I _ _)).
  - exact (K _ N _ N' _ _ H).
  - subst. destruct (N (I _ _)).
  - exact H.
Qed.
Lemma encode_inj' s t : valid_str s -> valid_str t -> encode s = encode t -> s = t.
Proof. intros V V' E. pose proof (decode_encode s V) as D. rewrite E, (decode_encode t V') in D. congruence. Qed.
