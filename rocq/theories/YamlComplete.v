(** The reader of YamlText.v reads all the texts of YamlSpec.v, and (with YamlSound.v) nothing else. *)
From Coq Require Import String.
From Verif Require Import Base StrOps Yaml File YamlText BaseFacts ParseProps YamlTextFacts YamlSpec YamlScalars YamlSound.
Local Open Scope string_scope.
Local Open Scope list_scope.

(** ** Scalars *)
Lemma plain_word_plain s : plain_word s -> need_quotes s = false /\ showable s.
Proof.
  intros P. assert (R : read_plain s = Some (YStr s)) by (apply read_plain_iff; auto). destruct P as (c & r & -> & N & La & F & W & B & Fl).
  rewrite <- reserved_iff, not_true_iff_false in W. rewrite <- radix_iff, not_true_iff_false in B. rewrite <- float_iff, not_true_iff_false in Fl. rewrite Forall_forall in F.
  assert (Pr : forallb printable (c :: r) = true) by (apply forallb_forall; intros x I; apply printable_iff, F, I).
  split.
  - unfold need_quotes. rewrite W, Fl. change SPACE with 0x20%N. rewrite (proj2 (N.eqb_neq _ _) La).
    replace (N.eqb c 0x20) with false by (symmetry; apply N.eqb_neq; intros ->; apply N; vm_compute; tauto). replace (N.eqb c DOT) with false by (symmetry; apply N.eqb_neq; intros ->; apply N; vm_compute; tauto).
    replace (in_text "&*?|-<>=!%@" c) with false by (symmetry; apply not_true_iff_false; rewrite in_text_iff; intros I; apply N; revert I; vm_compute; tauto).
    replace (existsb quoted_char (c :: r)) with false.
    + replace (starts_with (lit "0x") (c :: r)) with false; [reflexivity|]. symmetry. apply not_true_iff_false. intros Q. apply starts_with_app in Q as (x & Q). assert (X : radix_text (c :: r) = true); [|congruence]. apply radix_iff. exists [], (lit "0x"), x. auto.
    + symmetry. apply not_true_iff_false. intros Q. apply existsb_exists in Q as (x & I & Q). apply F in I as [Sh I]. unfold quoted_char in Q. rewrite !orb_true_iff, in_text_iff, !andb_true_iff, !N.leb_le, !N.eqb_eq in Q. unfold shown in Sh.
      assert (Q' : In x (lit ":{}[],#`'\") \/ x = QUOT) by (destruct Q as [[[[[[[Q|Q]|Q]|Q]|Q]|Q]|Q]|Q]; auto; lia). apply I. destruct Q' as [Q'| ->]; [revert Q'|]; vm_compute; tauto.
  - split; [|exact B]. rewrite forallb_forall in Pr. apply forallb_forall. intros x I. unfold can_print. rewrite (Pr x I). reflexivity.
Qed.
Lemma hex_reads d n : hex d n -> hex_value d = Some (N.of_nat n).
Proof.
  unfold hex. vm_compute lit. intros H. do 16 (destruct n as [|n]; [destruct H as [H|H]; injection H as <-; reflexivity|]). destruct H as [H|H]; destruct n; discriminate H.
Qed.
Lemma quoted_text_reads b s rest : quoted b s -> read_quoted (b ++ QUOT :: rest) = Some (s, rest).
Proof.
  induction 1 as [|c b s H Q IH|e c b s H Q IH|c d1 d2 d3 d4 n1 n2 n3 n4 b s H1 H2 H3 H4 E R Q IH]; [reflexivity|..].
  - cbn [app read_quoted]. destruct H as (H & H1 & H2). replace (N.eqb c QUOT) with false by (symmetry; apply N.eqb_neq; exact H1).
    replace (N.eqb c BACKSLASH) with false by (symmetry; apply N.eqb_neq; exact H2).
    rewrite (proj2 (printable_iff c) H), IH. reflexivity.
  - rewrite <- !app_assoc. cbn [app]. change (lit "\" ++ e :: b ++ QUOT :: rest) with (BACKSLASH :: e :: b ++ QUOT :: rest). cbn [read_quoted].
    change (N.eqb BACKSLASH QUOT) with false. change (N.eqb BACKSLASH BACKSLASH) with true. cbn iota. rewrite IH.
    unfold escapes in H. vm_compute in H. repeat (destruct H as [H|H]; [injection H as <- <-; reflexivity|]). destruct H.
  - rewrite <- !app_assoc. cbn [app]. change (lit "\u" ++ d1 :: d2 :: d3 :: d4 :: b ++ QUOT :: rest) with (BACKSLASH :: 0x75%N :: d1 :: d2 :: d3 :: d4 :: b ++ QUOT :: rest). cbn [read_quoted].
    change (N.eqb BACKSLASH QUOT) with false. change (N.eqb BACKSLASH BACKSLASH) with true. cbn iota. change (unescape 0x75%N) with (@None char). change (N.eqb 0x75%N 0x75%N) with true. cbn iota.
    rewrite (hex_reads _ _ H1), (hex_reads _ _ H2), (hex_reads _ _ H3), (hex_reads _ _ H4), IH. cbn zeta.
    replace (((N.of_nat n1 * 16 + N.of_nat n2) * 16 + N.of_nat n3) * 16 + N.of_nat n4)%N with c by (rewrite E; lia).
    replace (N.ltb c 0xD800 || N.leb 0xE000 c)%bool with true by (symmetry; rewrite orb_true_iff, N.ltb_lt, N.leb_le; exact R). reflexivity.
Qed.
Lemma quoted_line b s : quoted b s -> ~ In NEWLINE b.
Proof.
  assert (X : forall d n, hex d n -> d <> NEWLINE).
  { intros d n H ->. unfold hex in H. vm_compute lit in H. do 16 (destruct n as [|n]; [destruct H as [H|H]; discriminate H|]). destruct H as [H|H]; destruct n; discriminate H. }
  induction 1 as [|c b s H Q IH|e c b s H Q IH|c d1 d2 d3 d4 n1 n2 n3 n4 b s H1 H2 H3 H4 E R Q IH].
  - intros [].
  - intros [->|I]; [|exact (IH I)]. destruct H as [H _]. unfold shown in H. change NEWLINE with 0x0A%N in H. lia.
  - intros I. apply in_app_iff in I as [[I|[]]|I]; [discriminate I|]. destruct I as [->|I]; [|exact (IH I)].
    unfold escapes in H. vm_compute in H. repeat (destruct H as [H|H]; [discriminate H|]). exact H.
  - intros I. apply in_app_iff in I as [[I|[I|[]]]|I]; [discriminate I..|]. destruct I as [I|[I|[I|[I|I]]]]; [apply (X _ _ H1 I)|apply (X _ _ H2 I)|apply (X _ _ H3 I)|apply (X _ _ H4 I)|exact (IH I)].
Qed.
Lemma shown_printable c : shown c -> printable c = true.
Proof. intros H. unfold shown in H. unfold printable. rewrite orb_true_iff, !andb_true_iff, !negb_true_iff, !N.eqb_neq, !N.leb_le, N.ltb_lt. lia. Qed.
Lemma single_text_reads b s rest : single b s -> match rest with [] => True | d :: _ => d <> APOSTROPHE end -> read_single (b ++ APOSTROPHE :: rest) = Some (s, rest).
Proof.
  intros H R. induction H as [|c b s H N Q IH|b s Q IH].
  - cbn [app read_single]. change (N.eqb APOSTROPHE APOSTROPHE) with true. cbn iota. destruct rest as [|d r]; [reflexivity|]. rewrite (proj2 (N.eqb_neq _ _) R). reflexivity.
  - cbn [app read_single]. change APOSTROPHE with 0x27%N at 1. rewrite (proj2 (N.eqb_neq _ _) N), (shown_printable c H), IH. reflexivity.
  - change (lit "''" ++ b) with (APOSTROPHE :: APOSTROPHE :: b). cbn [app read_single]. change (N.eqb APOSTROPHE APOSTROPHE) with true. cbn iota. rewrite IH. reflexivity.
Qed.
Lemma single_line b s : single b s -> ~ In NEWLINE b.
Proof.
  induction 1 as [|c b s H N Q IH|b s Q IH]; [intros []|..].
  - intros [->|I]; [|exact (IH I)]. unfold shown in H. change NEWLINE with 0x0A%N in H. lia.
  - intros [I|[I|I]]; [discriminate I..|exact (IH I)].
Qed.
(** What is used of one written text. *)
Lemma marks_line m b : m <> NEWLINE -> ~ In NEWLINE b -> ~ In NEWLINE ([m] ++ b ++ [m]).
Proof. intros M N I. apply in_app_iff in I as [[I|[]]|I]; [exact (M I)|]. apply in_app_iff in I as [I|[I|[]]]; [exact (N I)|exact (M I)]. Qed.
Lemma written_key t s : written t s -> List.length t < 1000 -> key_written t (YStr s).
Proof.
  intros [(b & -> & F)|[(b & -> & F)|[-> P]]] L.
  - assert (R : forall x, read_quoted (b ++ QUOT :: x) = Some (s, x)) by (intros x; apply quoted_text_reads, F). split; [apply marks_line; [discriminate|exact (quoted_line b s F)]|]. split; [|split; [|split]].
    + exists QUOT, (b ++ [QUOT]). split; [reflexivity|]. split; discriminate.
    + intros x. reflexivity.
    + intros x X. unfold cut_key. change ([0x22%N] ++ b ++ [0x22%N]) with (QUOT :: b ++ [QUOT]) in *. cbn [app]. change (N.eqb QUOT QUOT) with true. cbn iota.
      rewrite <- app_assoc. cbn [app]. rewrite R. change (N.eqb COLON COLON) with true. cbn iota. rewrite X. cbn [andb].
      assert (Q : Nat.leb (List.length (QUOT :: b ++ QUOT :: COLON :: x) - List.length x) 1000 = true).
      { apply Nat.leb_le. cbn [List.length] in L |- *. rewrite app_length in L |- *. cbn [List.length] in L |- *. unfold char in *. lia. }
      match goal with |- (if ?q then _ else _) = _ => replace q with true by (symmetry; exact Q) end. reflexivity.
    + exact (proj1 (quoted_calm (b ++ [QUOT]) s (R []))).
  - assert (R : forall x, match x with [] => True | d :: _ => d <> APOSTROPHE end -> read_single (b ++ APOSTROPHE :: x) = Some (s, x)) by (intros x; apply single_text_reads, F).
    split; [apply marks_line; [discriminate|exact (single_line b s F)]|]. split; [|split; [|split]].
    + exists APOSTROPHE, (b ++ [APOSTROPHE]). split; [reflexivity|]. split; discriminate.
    + intros x. reflexivity.
    + intros x X. unfold cut_key. change ([0x27%N] ++ b ++ [0x27%N]) with (APOSTROPHE :: b ++ [APOSTROPHE]) in *. cbn [app]. change (N.eqb APOSTROPHE QUOT) with false. change (N.eqb APOSTROPHE APOSTROPHE) with true. cbn iota.
      rewrite <- app_assoc. cbn [app]. rewrite R by discriminate. change (N.eqb COLON COLON) with true. cbn iota. rewrite X. cbn [andb].
      assert (Q : Nat.leb (List.length (APOSTROPHE :: b ++ APOSTROPHE :: COLON :: x) - List.length x) 1000 = true).
      { apply Nat.leb_le. cbn [List.length] in L |- *. rewrite app_length in L |- *. cbn [List.length] in L |- *. unfold char in *. lia. }
      match goal with |- (if ?q then _ else _) = _ => replace q with true by (symmetry; exact Q) end. reflexivity.
    + exact (proj1 (single_calm (b ++ [APOSTROPHE]) s (R [] Logic.I))).
  - destruct (plain_word_plain s P) as [N H]. assert (E : emit_scalar s = s) by (unfold emit_scalar; rewrite N; reflexivity). rewrite <- E at 1.
    apply emitted_key; [exact H|]. unfold key_fits. rewrite E. exact L.
Qed.
Lemma written_value t s : written t s -> value_written t (YStr s).
Proof.
  intros [(b & -> & F)|[(b & -> & F)|[-> P]]].
  - assert (R : read_quoted (b ++ [QUOT]) = Some (s, [])) by apply (quoted_text_reads b s [] F). split; [apply marks_line; [discriminate|exact (quoted_line b s F)]|]. split; [|split].
    + exists QUOT, (b ++ [QUOT]). split; [reflexivity|split; discriminate].
    + change ([0x22%N] ++ b ++ [0x22%N]) with (QUOT :: b ++ [QUOT]). unfold read_inline. change (N.eqb QUOT LBRACKET || N.eqb QUOT LBRACE)%bool with false. cbn iota.
      unfold read_scalar. change (N.eqb QUOT QUOT) with true. cbn iota. rewrite R. reflexivity.
    + exact (quoted_calm (b ++ [QUOT]) s R).
  - assert (R : read_single (b ++ [APOSTROPHE]) = Some (s, [])) by apply (single_text_reads b s [] F Logic.I). split; [apply marks_line; [discriminate|exact (single_line b s F)]|]. split; [|split].
    + exists APOSTROPHE, (b ++ [APOSTROPHE]). split; [reflexivity|split; discriminate].
    + change ([0x27%N] ++ b ++ [0x27%N]) with (APOSTROPHE :: b ++ [APOSTROPHE]). unfold read_inline. change (N.eqb APOSTROPHE LBRACKET || N.eqb APOSTROPHE LBRACE)%bool with false. cbn iota.
      unfold read_scalar. change (N.eqb APOSTROPHE QUOT) with false. change (N.eqb APOSTROPHE APOSTROPHE) with true. cbn iota. rewrite R. reflexivity.
    + exact (single_calm (b ++ [APOSTROPHE]) s R).
  - destruct (plain_word_plain s P) as [N H]. replace s with (emit_scalar s) at 1 by (unfold emit_scalar; rewrite N; reflexivity). apply emitted_value, H.
Qed.
Lemma fits_plain t : fits t -> (forall c r, t = c :: r -> c <> QUOT /\ c <> APOSTROPHE /\ c <> LBRACKET /\ c <> LBRACE) -> ~ In 0x3F%N t.
Proof. intros [(c & r & E & I)|N] H; [|exact N]. destruct (H c r E) as (N1 & N2 & N3 & N4). vm_compute in I. destruct I as [I|[I|[I|[I|[]]]]]; exfalso; subst c; [apply N2|apply N1|apply N3|apply N4]; reflexivity. Qed.
Lemma written_flows t s : written t s -> fits t -> flows t (YStr s).
Proof.
  intros W Fi. destruct W as [(b & -> & F)|[(b & -> & F)|[-> P]]].
  - intros j rest S. change (([0x22%N] ++ b ++ [0x22%N]) ++ repeat SPACE j ++ rest) with (QUOT :: (b ++ [QUOT]) ++ repeat SPACE j ++ rest). unfold flow_scalar. change (N.eqb QUOT QUOT) with true. cbn iota.
    rewrite <- app_assoc. cbn [app]. rewrite (quoted_text_reads b s _ F). rewrite skip_spaces_app by (apply stop_not_space, S). reflexivity.
  - intros j rest S. change (([0x27%N] ++ b ++ [0x27%N]) ++ repeat SPACE j ++ rest) with (APOSTROPHE :: (b ++ [APOSTROPHE]) ++ repeat SPACE j ++ rest). unfold flow_scalar. change (N.eqb APOSTROPHE QUOT) with false.
    change (N.eqb APOSTROPHE APOSTROPHE) with true. cbn iota.
    rewrite <- app_assoc. cbn [app]. rewrite (single_text_reads b s _ F) by (apply repeat_stop, S). rewrite skip_spaces_app by (apply stop_not_space, S). reflexivity.
  - assert (R : read_plain s = Some (YStr s)) by (apply read_plain_iff; auto). apply plain_flows; [exact R|]. apply fits_plain; [exact Fi|]. intros c r E. unfold read_plain in R. destruct (plain_text s) eqn:Q; [|discriminate R].
    destruct (plain_parts s Q) as (c' & r' & E' & N1 & N2 & _ & _ & _ & N3 & N4 & _). rewrite E in E'. injection E' as <- _. auto.
Qed.
Lemma number_chars t : number t -> (forall c, In c t -> digit c \/ c = 0x2E%N \/ c = 0x2B%N) /\ exists c r, t = c :: r /\ (digit c \/ c = 0x2B%N).
Proof.
  intros (sg & ds & fr & -> & S & N & D & _ & F). split.
  - intros c I. rewrite !in_app_iff in I. rewrite Forall_forall in D. destruct I as [I|[I|I]].
    + destruct S as [-> | ->]; [destruct I|]. destruct I as [<-|[]]. auto.
    + left. apply D, I.
    + destruct F as [-> |(f & -> & F)]; [destruct I|]. destruct I as [<-|I]; [auto|]. rewrite Forall_forall in F. left. apply F, I.
  - destruct S as [-> | ->]; [|exists 0x2B%N, (ds ++ fr); auto]. destruct ds as [|d ds]; [destruct N; reflexivity|]. exists d, (ds ++ fr). inversion D; auto.
Qed.
Lemma number_reads t : number t -> List.length t <= 150 -> plain_text t = true /\ resolve t = Some YNum.
Proof.
  intros H L. assert (R : read_plain t = Some YNum) by (apply read_plain_iff; auto). unfold read_plain in R. destruct (plain_text t); [auto|discriminate R].
Qed.
(** Such a scalar is read as something that is not a text. *)
Lemma no_text_reads t : no_text t -> List.length t <= 150 -> plain_text t = true /\ exists v, resolve t = Some v /\ (v = YNum \/ v = YBool \/ v = YNull).
Proof.
  intros [H|[-> |[-> |[-> | ->]]]] L; [destruct (number_reads t H L); split; eauto|..]; (split; [vm_compute; reflexivity|]); eexists; (split; [vm_compute; reflexivity|auto]).
Qed.
Lemma no_text_line t : no_text t -> ~ In NEWLINE t /\ ~ In COLON t /\ exists c r, t = c :: r /\ ~ In c (lit " #-""[{'").
Proof.
  intros [H|H].
  - destruct (number_chars t H) as (C & c & r & E & I). split; [|split].
    + intros J. apply C in J. change NEWLINE with 0x0A%N in J. unfold digit in J. lia.
    + intros J. apply C in J. change COLON with 0x3A%N in J. unfold digit in J. lia.
    + exists c, r. split; [exact E|]. vm_compute. unfold digit in I. intros J. repeat (destruct J as [<-|J]; [lia|]). exact J.
  - assert (X : forall t, forallb (fun c => negb (N.eqb c NEWLINE || N.eqb c COLON)) t = true -> (match t with c :: _ => negb (in_text " #-""[{'" c) | [] => false end) = true ->
      ~ In NEWLINE t /\ ~ In COLON t /\ exists c r, t = c :: r /\ ~ In c (lit " #-""[{'")).
    { clear. intros t A B. rewrite forallb_forall in A. split; [intros I; specialize (A _ I); discriminate A|]. split; [intros I; specialize (A _ I); discriminate A|].
      destruct t as [|c r]; [discriminate B|]. exists c, r. split; [reflexivity|]. apply in_text_false. apply negb_true_iff, B. }
    destruct H as [-> |[-> |[-> | ->]]]; apply X; vm_compute; reflexivity.
Qed.
Lemma no_text_calm t : no_text t -> List.length t <= 150 -> calm t /\ tight t.
Proof.
  intros H L. destruct (no_text_reads t H L) as (P & _). destruct (plain_parts t P) as (c & r & E & _ & _ & _ & _ & _ & _ & _ & La & _ & NR & _). split; [|exact (tight_last t c r E La NR)].
  destruct H as [H|H]; [|destruct H as [-> |[-> |[-> | ->]]]; apply calm_chars; reflexivity]. apply calm_chars. apply forallb_forall. intros x I. apply (proj1 (number_chars t H)) in I. apply negb_true_iff.
  unfold in_text. vm_compute lit. cbn [existsb]. rewrite !orb_false_iff, !N.eqb_neq. unfold digit in I. repeat split; lia.
Qed.
Lemma no_text_key t : no_text t -> List.length t <= 150 -> exists v, resolve t = Some v /\ key_written t v /\ (v = YNum \/ v = YBool \/ v = YNull).
Proof.
  intros H L. destruct (no_text_reads t H L) as (P & v & V & K). destruct (no_text_line t H) as (N & C & c & r & E & R). exists v. split; [exact V|]. split; [|exact K].
  assert (NE : c <> SPACE /\ c <> HASH /\ c <> MINUS /\ c <> QUOT /\ c <> APOSTROPHE) by (repeat split; intros ->; apply R; vm_compute; tauto). destruct NE as (N1 & N2 & N3 & N4 & N5).
  split; [exact N|]. split; [|split; [|split; [|apply no_text_calm; assumption]]].
  - exists c, r. auto.
  - intros x. rewrite E. cbn [app]. unfold cut_dash. rewrite (proj2 (N.eqb_neq c MINUS) N3). reflexivity.
  - intros x X. unfold cut_key. rewrite E at 1. cbn [app]. rewrite (proj2 (N.eqb_neq c QUOT) N4), (proj2 (N.eqb_neq c APOSTROPHE) N5).
    rewrite cut_colon_app; [|intros y I ->; exact (C I)]. unfold read_plain. rewrite P, V. cbn [option_map].
    rewrite X. cbn [andb].
    replace (Nat.leb (List.length (t ++ COLON :: x) - List.length x) 1000) with true; [reflexivity|]. symmetry. apply Nat.leb_le. rewrite app_length. cbn [List.length]. lia.
Qed.
Lemma no_text_value t : no_text t -> List.length t <= 150 -> exists v, resolve t = Some v /\ value_written t v /\ (v = YNum \/ v = YBool \/ v = YNull).
Proof.
  intros H L. destruct (no_text_reads t H L) as (P & v & V & K). destruct (no_text_line t H) as (N & C & c & r & E & R). exists v. split; [exact V|]. split; [|exact K].
  assert (NE : c <> SPACE /\ c <> HASH /\ c <> LBRACKET /\ c <> LBRACE /\ c <> QUOT /\ c <> APOSTROPHE) by (repeat split; intros ->; apply R; vm_compute; tauto). destruct NE as (N1 & N0 & N2 & N3 & N4 & N5).
  split; [exact N|]. split; [|split; [|apply no_text_calm; assumption]].
  - exists c, r. auto.
  - unfold read_inline. rewrite E at 1. cbn iota. rewrite (proj2 (N.eqb_neq c LBRACKET) N2), (proj2 (N.eqb_neq c LBRACE) N3). cbn [orb].
    unfold read_scalar. rewrite E at 1. cbn iota. rewrite (proj2 (N.eqb_neq c QUOT) N4), (proj2 (N.eqb_neq c APOSTROPHE) N5). unfold read_plain. rewrite P. exact V.
Qed.

Definition kind (v : yval) (o : option str) : Prop := match o with Some s => v = YStr s | None => v = YNum \/ v = YBool \/ v = YNull end.
Lemma scalar_key t o : scalar t o -> List.length t < 1000 -> exists v, key_written t v /\ kind v o.
Proof.
  destruct o as [s|]; intros H L; [exists (YStr s); split; [apply written_key; assumption|reflexivity]|]. destruct (no_text_key t (proj1 H) (proj2 H)) as (v & _ & W & K). exists v. auto.
Qed.
Lemma scalar_value t o : scalar t o -> exists v, value_written t v /\ kind v o.
Proof.
  destruct o as [s|]; intros H; [exists (YStr s); split; [apply written_value; assumption|reflexivity]|]. destruct (no_text_value t (proj1 H) (proj2 H)) as (v & _ & W & K). exists v. auto.
Qed.
Lemma scalar_first t o : scalar t o -> exists c r, t = c :: r /\ c <> SPACE /\ c <> LBRACKET /\ c <> LBRACE /\ c <> RBRACKET /\ c <> HASH.
Proof.
  destruct o as [s|]; intros H.
  - destruct H as [(b & -> & _)|[(b & -> & _)|[-> (c & r & E & N & _ & F & _)]]]; [exists 0x22%N, (b ++ [0x22%N]); split; [reflexivity|repeat split; discriminate]|exists 0x27%N, (b ++ [0x27%N]); split; [reflexivity|repeat split; discriminate]|]. exists c, r. split; [exact E|].
    rewrite E in F. inversion F as [|? ? [_ Pc] _]. subst. split; [intros ->; apply N; vm_compute; tauto|]. repeat split; intros ->; apply Pc; vm_compute; tauto.
  - destruct (no_text_line t (proj1 H)) as (_ & _ & c & r & E & R). exists c, r. split; [exact E|]. destruct (no_text_reads t (proj1 H) (proj2 H)) as (P & _).
    destruct (plain_parts t P) as (c' & r' & E' & _ & _ & S1 & S2 & _ & S3 & S4 & _ & F & _). rewrite E in E'. injection E' as <- <-. repeat split; try assumption. intros ->.
    rewrite E in F. discriminate F.
Qed.
Lemma kinds_fresh ks os : Forall2 kind ks os -> NoDup os -> forall seen sos, Forall2 kind seen sos -> (forall o, In o os -> ~ In o sos) -> all_fresh seen ks.
Proof.
  induction 1 as [|k o ks os K F IH]; intros D seen sos Sn N; [exact I|]. inversion D as [|? ? Q D']; subst. split.
  - assert (No : ~ In o sos) by (apply N; left; reflexivity). destruct o as [s|]; cbn [kind] in K.
    + subst k. apply fresh_str. intros J. apply No. clear -Sn J. induction Sn as [|v o seen sos V Sn IH]; [exact J|]. destruct J as [-> |J]; [|right; exact (IH J)].
      left. destruct o as [t|]; cbn [kind] in V; [injection V as ->; reflexivity|]. destruct V as [V|[V|V]]; discriminate V.
    + assert (X : forallb (fun x => match x with YStr _ => true | _ => false end) seen = true).
      { clear -Sn No. induction Sn as [|v o seen sos V Sn IH]; [reflexivity|]. cbn [forallb]. rewrite IH by (intros J; apply No; right; exact J).
        destruct o as [t|]; [cbn [kind] in V; subst v; reflexivity|]. destruct No. left. reflexivity. }
      destruct K as [-> |[-> | ->]]; exact X.
  - apply (IH D' (k :: seen) (o :: sos)); [constructor; assumption|]. intros x I [<-|J]; [exact (Q I)|]. exact (N x (or_intror I) J).
Qed.
Lemma scalar_is_scalar t v : scalar_is t v -> exists o, scalar t o /\ kind v o.
Proof.
  intros [t' s H|t' H L|t' H|t' H]; [exists (Some s); split; [exact H|reflexivity]|exists None..]; unfold scalar, no_text, kind;
    (split; [split|]); auto; destruct H as [-> | ->]; try (apply Nat.leb_le; vm_compute; reflexivity); auto.
Qed.
Lemma scalar_unique t v v' o : scalar_is t v -> scalar t o -> kind v o -> read_inline t = Some v' -> kind v' o -> v' = v.
Proof.
  intros H S K R K'. destruct H as [t s H|t H L|t H|t H].
  - destruct o as [s'|]; cbn [kind] in *; [congruence|]. destruct K as [K|[K|K]]; discriminate K.
  - destruct o as [s'|]; cbn [kind] in K; [discriminate K|]. destruct S as [S L']. destruct (no_text_value t S L') as (x & Rx & (_ & _ & R' & _) & _). destruct (number_reads t H L) as [_ Q]. congruence.
  - destruct H as [-> | ->]; vm_compute in R; congruence.
  - destruct H as [-> | ->]; vm_compute in R; congruence.
Qed.
Lemma scalar_facts t v : scalar_is t v -> value_written t v /\ (fits t -> flows t v) /\ cut_dash t = None /\ cut_key t = None /\
  exists c r, t = c :: r /\ c <> SPACE /\ c <> HASH /\ c <> MINUS /\ c <> LBRACKET /\ c <> LBRACE /\ c <> RBRACKET /\ c <> RBRACE.
Proof.
  intros H. destruct (scalar_is_scalar t v H) as (o & S & K). destruct (scalar_value t o S) as (v' & W & K'). assert (v' = v) by (destruct W as (_ & _ & R & _); exact (scalar_unique t v v' o H S K R K')). subst v'.
  split; [exact W|]. clear K'.
  assert (D : (exists b s, t = QUOT :: b /\ read_quoted b = Some (s, [])) \/ (exists b s, t = APOSTROPHE :: b /\ read_single b = Some (s, [])) \/ plain_text t = true).
  { destruct o as [s|]; [|right; right; apply (no_text_reads t (proj1 S) (proj2 S))]. destruct S as [(b & -> & Q)|[(b & -> & Q)|[-> P]]].
    - left. exists (b ++ [QUOT]), s. split; [reflexivity|]. apply (quoted_text_reads b s [] Q).
    - right. left. exists (b ++ [APOSTROPHE]), s. split; [reflexivity|]. apply (single_text_reads b s [] Q Logic.I).
    - right. right. destruct (plain_word_plain s P) as [N Sh]. apply (plain_shown s Sh N). }
  assert (F : fits t -> flows t v).
  { intros Fi. assert (Pl : plain_text t = true -> read_plain t = Some v -> flows t v).
    { intros P R. apply plain_flows; [exact R|]. apply fits_plain; [exact Fi|]. intros c r E. destruct (plain_parts t P) as (c' & r' & E' & N1 & N2 & _ & _ & _ & N3 & N4 & _). rewrite E in E'. injection E' as <- _. auto. }
    destruct H as [t s H|t H L|t H|t H]; [apply written_flows; assumption|..].
    - destruct (number_reads t H L) as [A B]. apply Pl; [exact A|]. unfold read_plain. rewrite A. exact B.
    - destruct H as [-> | ->]; apply Pl; vm_compute; reflexivity.
    - destruct H as [-> | ->]; apply Pl; vm_compute; reflexivity. }
  split; [exact F|]. destruct D as [(b & s & -> & R)|[(b & s & -> & R)|P]].
  - split; [reflexivity|]. split; [|exists QUOT, b; split; [reflexivity|repeat split; discriminate]]. unfold cut_key. change (N.eqb QUOT QUOT) with true. cbn iota. rewrite R. reflexivity.
  - split; [reflexivity|]. split; [|exists APOSTROPHE, b; split; [reflexivity|repeat split; discriminate]]. unfold cut_key. change (N.eqb APOSTROPHE QUOT) with false. change (N.eqb APOSTROPHE APOSTROPHE) with true. cbn iota. rewrite R. reflexivity.
  - destruct (plain_parts t P) as (c & r & E & N1 & N2 & N3 & N4 & N5 & N6 & N7 & _ & FF & _ & _ & NC & _). rewrite E. split; [|split].
    + unfold cut_dash. rewrite (proj2 (N.eqb_neq _ _) N5). reflexivity.
    + unfold cut_key. rewrite (proj2 (N.eqb_neq _ _) N1), (proj2 (N.eqb_neq _ _) N2). rewrite <- E, cut_colon_none; [reflexivity|]. intros x I ->. exact (NC I).
    + exists c, r. split; [reflexivity|]. rewrite E in FF. cbn [forallb] in FF. apply andb_true_iff in FF as [FF _]. repeat split; try assumption; intros ->; discriminate FF.
Qed.
Lemma key_facts t k : key_is t k -> key_written t k.
Proof.
  intros [H L]. destruct (scalar_is_scalar t k H) as ([s|] & O & K).
  - cbn [kind] in K. subst k. apply written_key; assumption.
  - destruct O as [O L']. destruct (no_text_key t O L') as (v' & R & W & K'). assert (v' = k); [|subst; exact W]. destruct (no_text_value t O L') as (v & R2 & (_ & _ & RI2 & _) & _).
    assert (v = v') by congruence. subst v. exact (scalar_unique t k v' None H (conj O L') K RI2 K').
Qed.
Lemma bracket_key c r : c = LBRACKET \/ c = LBRACE -> cut_key (c :: r) = None.
Proof.
  intros H. unfold cut_key. assert (Q : N.eqb c QUOT = false /\ N.eqb c APOSTROPHE = false /\ N.eqb c COLON = false /\ (printable c && negb (in_text ":#,[]{}`'""\" c))%bool = false) by (destruct H as [-> | ->]; auto).
  destruct Q as (-> & -> & Q1 & Q2). cbn iota. cbn [cut_colon]. rewrite Q1. destruct (cut_colon r) as [[x rest]|]; [|reflexivity]. cbn [cons_to option_map]. unfold read_plain, plain_text. cbn [forallb].
  rewrite Q2. cbn [andb]. rewrite andb_false_r. reflexivity.
Qed.
Lemma spaces_line i : no_newline (spaces i).
Proof. exact (spaces_no_newline i). Qed.
Lemma spaces_calm i : calm (spaces i).
Proof. exact (calm_spaces i). Qed.
Lemma lit_line s : forallb (fun c => negb (N.eqb c NEWLINE)) (lit s) = true -> no_newline (lit s).
Proof. intros H I. rewrite forallb_forall in H. apply H in I. discriminate I. Qed.
(** Values on one line. *)
Definition first_ok (t : str) : Prop := exists c r, t = c :: r /\ c <> SPACE /\ c <> HASH /\ c <> MINUS /\ c <> RBRACKET /\ c <> RBRACE.
Lemma first_hash t x : first_ok t -> hd_error (t ++ x) <> Some HASH.
Proof. intros (c & r & -> & _ & N & _) Q. injection Q as Q. exact (N Q). Qed.
Lemma first_space t x : first_ok t -> match t ++ x with [] => True | c :: _ => c <> SPACE end.
Proof. intros (c & r & -> & N & _). exact N. Qed.
Lemma spaces_hash i x : hd_error x <> Some HASH -> hd_error (spaces i ++ x) <> Some HASH.
Proof. intros H. destruct i; [exact H|discriminate]. Qed.
Definition reads_inline (t : str) (v : yval) : Prop := no_newline t /\ calm t /\ tight t /\ first_ok t /\ cut_dash t = None /\ cut_key t = None /\ read_inline t = Some v /\ (fits t -> flow_node t v).
Definition reads_listed (t : str) (vs : list yval) : Prop := no_newline t /\ calm t /\ hd_error t <> Some HASH /\
  exists x, skip_spaces t = x /\ first_ok x /\ List.length x <= List.length t /\ forall f j rest, stop_first rest -> 2 * List.length x + 1 <= f -> flow_elements f (x ++ lit "]" ++ repeat SPACE j ++ rest) = Some (vs, rest).
Definition reads_paired (t : str) (kvs : list (yval * yval)) : Prop := no_newline t /\ calm t /\ hd_error t <> Some HASH /\ Forall (fun k => kind k (key_text k)) (map fst kvs) /\
  exists x, skip_spaces t = x /\ first_ok x /\ List.length x <= List.length t /\
  forall f j rest seen, stop_first rest -> 2 * List.length x + 1 <= f -> all_fresh seen (map fst kvs) -> flow_pairs f seen (x ++ lit "}" ++ repeat SPACE j ++ rest) = Some (kvs, rest).
Lemma kind_key K k : key_is K k -> kind k (key_text k).
Proof. intros [[t s H|t H L|t H|t H] _]; cbn; auto. Qed.
Lemma key_first K k : key_is K k -> first_ok K.
Proof. intros [H _]. destruct (scalar_facts K k H) as (_ & _ & _ & _ & c & r & E & A1 & A2 & A3 & _ & _ & A4 & A5). exists c, r. auto 10. Qed.
Lemma apart_fresh kvs : Forall (fun k => kind k (key_text k)) (map fst kvs) -> apart (map (@fst yval yval) kvs) -> all_fresh [] (map fst kvs).
Proof.
  intros Kd Ap. apply (kinds_fresh _ (map key_text (map fst kvs))) with (sos := []); [|exact Ap|constructor|intros ? _ []]. clear -Kd. induction Kd; constructor; auto.
Qed.
Lemma skip_first i t x : first_ok t -> skip_spaces (spaces i ++ t ++ x) = t ++ x.
Proof. intros F. apply skip_spaces_app, first_space, F. Qed.
Lemma bracketed l r t v : l = LBRACKET /\ r = RBRACKET \/ l = LBRACE /\ r = RBRACE -> no_newline t -> calm t -> hd_error t <> Some HASH ->
  (forall f j rest, stop_first rest -> 2 * List.length t + 2 <= f -> read_flow f (l :: t ++ r :: repeat SPACE j ++ rest) = Some (v, rest)) -> reads_inline (l :: t ++ [r]) v.
Proof.
  intros LR NL C NH R. assert (Q : l <> NEWLINE /\ r <> NEWLINE /\ l <> SPACE /\ l <> HASH /\ l <> MINUS /\ l <> RBRACKET /\ l <> RBRACE /\ r <> SPACE /\ r <> RETURN /\ negb (in_text "#'""" l) = true /\ negb (in_text "#'""" r) = true /\ N.eqb l MINUS = false /\ r <> HASH).
  { destruct LR as [[-> ->]|[-> ->]]; repeat split; try discriminate; reflexivity. }
  destruct Q as (Q1 & Q2 & Q3 & Q4 & Q5 & Q6 & Q7 & Q8 & Q9 & Q10 & Q11 & Q12 & Q13).
  assert (NH' : hd_error (t ++ [r]) <> Some HASH) by (destruct t; [intros X; injection X as X; exact (Q13 X)|exact NH]).
  split; [|split; [|split; [|split; [|split; [|split; [|split]]]]]].
  - intros [I|I]; [exact (Q1 I)|]. apply in_app_iff in I as [I|[I|[]]]; [exact (NL I)|exact (Q2 I)].
  - change (l :: t ++ [r]) with ([l] ++ t ++ [r]). apply calm_app; [apply calm_chars; cbn [forallb]; rewrite Q10; reflexivity| |exact NH'].
    apply calm_app; [exact C|apply calm_chars; cbn [forallb]; rewrite Q11; reflexivity|intros X; injection X as X; exact (Q13 X)].
  - exists (l :: t), r. auto.
  - exists l, (t ++ [r]). auto 10.
  - unfold cut_dash. rewrite Q12. reflexivity.
  - apply bracket_key. tauto.
  - unfold read_inline. replace (N.eqb l LBRACKET || N.eqb l LBRACE)%bool with true by (destruct LR as [[-> _]|[-> _]]; reflexivity). specialize (R (S (2 * List.length (l :: t ++ [r]))) 0 [] Logic.I). cbn [repeat app] in R. rewrite R; [reflexivity|].
    cbn [List.length]. rewrite app_length. cbn [List.length]. lia.
  - intros _ f j rest Sp L. cbn [List.length] in L. rewrite app_length in L. cbn [List.length] in L. cbn [app]. rewrite <- app_assoc. cbn [app]. apply R; [exact Sp|lia].
Qed.
Lemma inlines_read : (forall t v, inline_is t v -> reads_inline t v) /\ (forall t vs, listed_in t vs -> reads_listed t vs) /\ (forall t kvs, paired_in t kvs -> reads_paired t kvs).
Proof.
  apply inline_ind3.
  - intros t v H. destruct (scalar_facts t v H) as ((A1 & _ & A2 & A3 & A4) & B & D & K & c & r & E & N1 & N2 & N3 & N4 & N5 & N6 & N7). unfold reads_inline, first_ok. repeat (split; [solve [assumption|exists c, r; auto 10]|]).
    intros Fi. apply flows_node; [exact (B Fi)|exists c, r; auto].
  - intros i. apply (bracketed LBRACKET RBRACKET (spaces i)); [auto|apply spaces_line|apply spaces_calm|destruct i; discriminate|].
    intros f j rest Sp L. destruct f as [|f]; [lia|]. cbn [read_flow]. change (N.eqb LBRACKET LBRACKET) with true. cbn iota. unfold spaces. change 0x20%N with SPACE. rewrite skip_spaces_app by discriminate.
    change (N.eqb RBRACKET RBRACKET) with true. cbn iota. rewrite skip_spaces_app by (apply stop_not_space, Sp). reflexivity.
  - intros t vs _ (A & B & C & x & Sk & (c & r & E & N1 & N2 & N3 & N4 & N5) & Lx & R). apply (bracketed LBRACKET RBRACKET t); auto.
    intros f j rest Sp L. destruct f as [|f]; [lia|]. cbn [read_flow]. change (N.eqb LBRACKET LBRACKET) with true. cbn iota.
    assert (Sk' : skip_spaces (t ++ RBRACKET :: repeat SPACE j ++ rest) = x ++ RBRACKET :: repeat SPACE j ++ rest).
    { rewrite <- Sk. clear -E Sk. unfold skip_spaces in *. induction t as [|d t IH]; [rewrite <- Sk in E; discriminate E|]. cbn [app trim_start_matches] in *. destruct (N.eqb d SPACE); [apply IH, Sk|reflexivity]. }
    rewrite Sk'. specialize (R f j rest Sp). rewrite E in R |- *. cbn [app] in R |- *. rewrite (proj2 (N.eqb_neq _ _) N4).
    match goal with |- match ?q with _ => _ end = _ => replace q with (Some (vs, rest)) by (symmetry; apply R; rewrite <- E; unfold char in *; lia) end. reflexivity.
  - intros i. apply (bracketed LBRACE RBRACE (spaces i)); [auto|apply spaces_line|apply spaces_calm|destruct i; discriminate|].
    intros f j rest Sp L. destruct f as [|f]; [lia|]. cbn [read_flow]. change (N.eqb LBRACE LBRACKET) with false. change (N.eqb LBRACE LBRACE) with true. cbn iota. unfold spaces. change 0x20%N with SPACE. rewrite skip_spaces_app by discriminate.
    change (N.eqb RBRACE RBRACE) with true. cbn iota. rewrite skip_spaces_app by (apply stop_not_space, Sp). reflexivity.
  - intros t kvs _ (A & B & C & Kd & x & Sk & (c & r & E & N1 & N2 & N3 & N4 & N5) & Lx & R) Ap. apply (bracketed LBRACE RBRACE t); auto.
    intros f j rest Sp L. destruct f as [|f]; [lia|]. cbn [read_flow]. change (N.eqb LBRACE LBRACKET) with false. change (N.eqb LBRACE LBRACE) with true. cbn iota.
    assert (Sk' : skip_spaces (t ++ RBRACE :: repeat SPACE j ++ rest) = x ++ RBRACE :: repeat SPACE j ++ rest).
    { rewrite <- Sk. clear -E Sk. unfold skip_spaces in *. induction t as [|d t IH]; [rewrite <- Sk in E; discriminate E|]. cbn [app trim_start_matches] in *. destruct (N.eqb d SPACE); [apply IH, Sk|reflexivity]. }
    rewrite Sk'. specialize (R f j rest [] Sp). rewrite E in R |- *. cbn [app] in R |- *. rewrite (proj2 (N.eqb_neq _ _) N5).
    match goal with |- match ?q with _ => _ end = _ => replace q with (Some (kvs, rest)) by (symmetry; apply R; [rewrite <- E; unfold char in *; lia|apply apart_fresh; assumption]) end. reflexivity.
  - intros i t v j _ (A & B & T & F & _ & _ & _ & R0) Fi. specialize (R0 Fi) as R. split; [|split; [|split]].
    + apply no_newline_app; [apply spaces_line|]. apply no_newline_app; [exact A|apply spaces_line].
    + apply calm_app; [apply spaces_calm| |apply first_hash, F]. apply calm_app; [exact B|apply spaces_calm|destruct j; discriminate].
    + apply spaces_hash, first_hash, F.
    + exists (t ++ spaces j). split; [apply skip_first, F|]. split; [destruct F as (c & r & -> & F); exists c, (r ++ spaces j); auto|]. split; [rewrite !app_length; lia|].
      intros f k rest Sp L. destruct f as [|f]; [lia|]. rewrite app_length in L. cbn [flow_elements]. rewrite <- app_assoc.
      match goal with |- match read_flow f ?y with _ => _ end = _ => replace (read_flow f y) with (Some (v, lit "]" ++ repeat SPACE k ++ rest)) by (symmetry; apply (R f j); [reflexivity|lia]) end.
      change (lit "]" ++ repeat SPACE k ++ rest) with (RBRACKET :: repeat SPACE k ++ rest). change (N.eqb RBRACKET RBRACKET) with true. cbn iota. rewrite skip_spaces_app by (apply stop_not_space, Sp). reflexivity.
  - intros i t v j r vs _ (A & B & T & F & _ & _ & _ & R0) Fi _ (A' & B' & NH & x & Sk & Fx & Lx & R'). specialize (R0 Fi) as R. split; [|split; [|split]].
    + apply no_newline_app; [apply spaces_line|]. apply no_newline_app; [exact A|]. apply no_newline_app; [apply spaces_line|]. apply no_newline_app; [apply lit_line; reflexivity|exact A'].
    + apply calm_app; [apply spaces_calm| |apply first_hash, F]. apply calm_app; [exact B| |destruct j; discriminate]. apply calm_app; [apply spaces_calm| |discriminate]. apply calm_app; [apply calm_chars; reflexivity|exact B'|exact NH].
    + apply spaces_hash, first_hash, F.
    + exists (t ++ spaces j ++ lit "," ++ r). split; [apply skip_first, F|]. split; [destruct F as (c & q & -> & F); exists c, (q ++ spaces j ++ lit "," ++ r); auto|]. split; [rewrite !app_length; lia|].
      intros f k rest Sp L. destruct f as [|f]; [lia|]. rewrite !app_length in L. change (List.length (lit ",")) with 1 in L. cbn [flow_elements]. rewrite <- !app_assoc.
      match goal with |- match read_flow f ?y with _ => _ end = _ => replace (read_flow f y) with (Some (v, lit "," ++ r ++ lit "]" ++ repeat SPACE k ++ rest)) by (symmetry; apply (R f j); [reflexivity|lia]) end.
      change (lit "," ++ r ++ lit "]" ++ repeat SPACE k ++ rest) with (COMMA :: r ++ lit "]" ++ repeat SPACE k ++ rest). change (N.eqb COMMA RBRACKET) with false. change (N.eqb COMMA COMMA) with true. cbn iota.
      assert (Sk' : forall z, skip_spaces (r ++ z) = x ++ z).
      { intros z. rewrite <- Sk. destruct Fx as (c & q0 & E & _). clear -E Sk. unfold skip_spaces in *. induction r as [|d r IH]; [rewrite <- Sk in E; discriminate E|]. cbn [app trim_start_matches] in *. destruct (N.eqb d SPACE); [apply IH, Sk|reflexivity]. }
      rewrite Sk', R'; [reflexivity|exact Sp|unfold char in *; lia].
  - intros i K k q m V v j Hk FK LK _ (A & B & T & F & _ & _ & _ & R0) FV. assert (HK : key_is K k) by (split; [exact Hk|lia]). destruct (key_facts K k HK) as (KN & _ & _ & _ & KC). pose proof (key_first K k HK) as KF. destruct (scalar_facts K k Hk) as (_ & Fl0 & _). specialize (Fl0 FK) as Fl. specialize (R0 FV) as R. split; [|split; [|split; [|split]]].
    + repeat (apply no_newline_app; [first [apply spaces_line|exact KN|exact A|apply lit_line; reflexivity]|]). apply spaces_line.
    + apply calm_app; [apply spaces_calm| |apply first_hash, KF]. apply calm_app; [exact KC| |destruct q; discriminate]. apply calm_app; [apply spaces_calm| |discriminate]. apply calm_app; [apply calm_chars; reflexivity| |discriminate].
      apply calm_app; [apply spaces_calm| |apply first_hash, F]. apply calm_app; [exact B|apply spaces_calm|destruct j; discriminate].
    + apply spaces_hash, first_hash, KF.
    + constructor; [exact (kind_key K k HK)|constructor].
    + exists (K ++ spaces q ++ lit ":" ++ spaces (S m) ++ V ++ spaces j). split; [apply skip_first, KF|]. split; [destruct KF as (c & q0 & -> & KF); exists c, (q0 ++ spaces q ++ lit ":" ++ spaces (S m) ++ V ++ spaces j); auto|]. split; [rewrite !app_length; lia|].
      intros f l rest seen Sp L Fr. destruct f as [|f]; [lia|]. rewrite !app_length in L. change (List.length (lit ":")) with 1 in L. cbn [map fst all_fresh] in Fr. destruct Fr as [Fr _]. cbn [flow_pairs]. rewrite <- !app_assoc.
      set (Z := spaces (S m) ++ V ++ spaces j ++ lit "}" ++ repeat SPACE l ++ rest).
      match goal with |- match flow_scalar ?y with _ => _ end = _ => replace (flow_scalar y) with (Some (k, COLON :: Z)) by (symmetry; exact (Fl q (COLON :: Z) eq_refl)) end. change (N.eqb COLON COLON) with true. change (starts_with [SPACE] Z) with true. rewrite Fr. cbn [andb].
      replace (Nat.leb (List.length (K ++ spaces q ++ lit ":" ++ Z) - List.length Z) 1000) with true by (symmetry; apply Nat.leb_le; unfold spaces; rewrite !app_length, repeat_length; change (List.length (lit ":")) with 1; unfold char in *; lia).
      unfold Z. rewrite (skip_first (S m) V _ F).
      match goal with |- match read_flow f ?y with _ => _ end = _ => replace (read_flow f y) with (Some (v, lit "}" ++ repeat SPACE l ++ rest)) by (symmetry; apply (R f j); [reflexivity|lia]) end.
      change (lit "}" ++ repeat SPACE l ++ rest) with (RBRACE :: repeat SPACE l ++ rest). change (N.eqb RBRACE RBRACE) with true. cbn iota. rewrite skip_spaces_app by (apply stop_not_space, Sp). reflexivity.
  - intros i K k q m V v j r kvs Hk FK LK _ (A & B & T & F & _ & _ & _ & R0) FV _ (A' & B' & NH & Kd & x & Sk & Fx & Lx & R'). assert (HK : key_is K k) by (split; [exact Hk|lia]). destruct (key_facts K k HK) as (KN & _ & _ & _ & KC). pose proof (key_first K k HK) as KF. destruct (scalar_facts K k Hk) as (_ & Fl0 & _). specialize (Fl0 FK) as Fl. specialize (R0 FV) as R. split; [|split; [|split; [|split]]].
    + repeat (apply no_newline_app; [first [apply spaces_line|exact KN|exact A|apply lit_line; reflexivity]|]). exact A'.
    + apply calm_app; [apply spaces_calm| |apply first_hash, KF]. apply calm_app; [exact KC| |destruct q; discriminate]. apply calm_app; [apply spaces_calm| |discriminate]. apply calm_app; [apply calm_chars; reflexivity| |discriminate].
      apply calm_app; [apply spaces_calm| |apply first_hash, F]. apply calm_app; [exact B| |destruct j; discriminate]. apply calm_app; [apply spaces_calm| |discriminate]. apply calm_app; [apply calm_chars; reflexivity|exact B'|exact NH].
    + apply spaces_hash, first_hash, KF.
    + constructor; [exact (kind_key K k HK)|exact Kd].
    + exists (K ++ spaces q ++ lit ":" ++ spaces (S m) ++ V ++ spaces j ++ lit "," ++ r). split; [apply skip_first, KF|]. split; [destruct KF as (c & q0 & -> & KF); exists c, (q0 ++ spaces q ++ lit ":" ++ spaces (S m) ++ V ++ spaces j ++ lit "," ++ r); auto|]. split; [rewrite !app_length; lia|].
      intros f l rest seen Sp L Fr. destruct f as [|f]; [lia|]. rewrite !app_length in L. change (List.length (lit ":")) with 1 in L. change (List.length (lit ",")) with 1 in L. cbn [map fst all_fresh] in Fr. destruct Fr as [Fr Fr']. cbn [flow_pairs]. rewrite <- !app_assoc.
      set (Z := spaces (S m) ++ V ++ spaces j ++ lit "," ++ r ++ lit "}" ++ repeat SPACE l ++ rest).
      match goal with |- match flow_scalar ?y with _ => _ end = _ => replace (flow_scalar y) with (Some (k, COLON :: Z)) by (symmetry; exact (Fl q (COLON :: Z) eq_refl)) end. change (N.eqb COLON COLON) with true. change (starts_with [SPACE] Z) with true. rewrite Fr. cbn [andb].
      replace (Nat.leb (List.length (K ++ spaces q ++ lit ":" ++ Z) - List.length Z) 1000) with true by (symmetry; apply Nat.leb_le; unfold spaces; rewrite !app_length, repeat_length; change (List.length (lit ":")) with 1; unfold char in *; lia).
      unfold Z. rewrite (skip_first (S m) V _ F).
      match goal with |- match read_flow f ?y with _ => _ end = _ => replace (read_flow f y) with (Some (v, lit "," ++ r ++ lit "}" ++ repeat SPACE l ++ rest)) by (symmetry; apply (R f j); [reflexivity|lia]) end.
      change (lit "," ++ r ++ lit "}" ++ repeat SPACE l ++ rest) with (COMMA :: r ++ lit "}" ++ repeat SPACE l ++ rest). change (N.eqb COMMA RBRACE) with false. change (N.eqb COMMA COMMA) with true. cbn iota.
      assert (Sk' : forall z, skip_spaces (r ++ z) = x ++ z).
      { intros z. rewrite <- Sk. destruct Fx as (c & q0 & E & _). clear -E Sk. unfold skip_spaces in *. induction r as [|d r IH]; [rewrite <- Sk in E; discriminate E|]. cbn [app trim_start_matches] in *. destruct (N.eqb d SPACE); [apply IH, Sk|reflexivity]. }
      rewrite Sk', R'; [reflexivity|exact Sp|unfold char in *; lia|exact Fr'].
Qed.

(** ** Blocks *)
Definition weight (ls : list line) : nat := fold_right (fun l n => List.length (snd l) + n) 0 ls.
Lemma weight_app a b : weight (a ++ b) = weight a + weight b.
Proof. unfold weight. induction a as [|l a IH]; [reflexivity|]. cbn [app fold_right]. rewrite IH. lia. Qed.
Lemma weight_cons n s ls : weight ((n, s) :: ls) = List.length s + weight ls.
Proof. reflexivity. Qed.
Definition good_line (l : line) : Prop := no_newline (snd l) /\ calm (snd l) /\ tight (snd l) /\ exists c r, snd l = c :: r /\ c <> SPACE /\ c <> HASH.
Lemma key_line_good n K k x : key_written K k -> no_newline x -> calm (lit ":" ++ x) -> tight (lit ":" ++ x) -> good_line (n, K ++ lit ":" ++ x).
Proof.
  intros (N & (c & r & E & A & B) & _ & _ & C) X Cx Tx. split; [|split; [|split]]; cbn [snd].
  - apply no_newline_app; [exact N|]. apply no_newline_app; [vm_compute; intros [Q|[]]; discriminate Q|exact X].
  - apply calm_app; [exact C|exact Cx|discriminate].
  - apply tight_app, Tx.
  - exists c, (r ++ lit ":" ++ x). rewrite E. auto.
Qed.
Lemma bare_key_good n K k : key_written K k -> good_line (n, K ++ lit ":").
Proof.
  intros W. apply (key_line_good n K k [] W); [intros []|apply calm_chars; reflexivity|exists [], COLON; split; [reflexivity|split; discriminate]].
Qed.
(** What may follow a sequence: nothing at its indentation but lines without a hyphen. *)
Definition stops (n : nat) (rest : list line) : Prop := match rest with (m, s) :: _ => m < n \/ (m = n /\ cut_dash s = None) | [] => True end.
Lemma below_stops n rest : below n rest -> stops n rest.
Proof. destruct rest as [|[m s] r]; [auto|]. cbn. auto. Qed.
Definition reads_block (n : nat) (ls : list line) (v : yval) : Prop := Forall good_line ls /\ (exists s r, ls = (n, s) :: r /\ s <> lit "---") /\
  forall f rest, below n rest -> 2 * weight ls + 2 <= f -> read_node f (ls ++ rest) = Some (v, rest).
Definition reads_elements (n : nat) (ls : list line) (vs : list yval) : Prop := Forall good_line ls /\
  (vs = [] /\ ls = [] \/ exists s r, ls = (n, s) :: r /\ s <> lit "---" /\ exists d, cut_dash s = Some d) /\
  forall f rest, stops n rest -> 2 * weight ls + 1 <= f -> read_seq f n (ls ++ rest) = Some (vs, rest).
Definition reads_pairs (n : nat) (ls : list line) (kvs : list (yval * yval)) : Prop := Forall good_line ls /\
  (kvs = [] /\ ls = [] \/ exists K k x r, ls = (n, K ++ lit ":" ++ x) :: r /\ key_written K k /\ after_colon x = true) /\
  Forall (fun k => kind k (key_text k)) (map fst kvs) /\
  forall f rest seen, below n rest -> 2 * weight ls + 1 <= f -> all_fresh seen (map fst kvs) -> read_map f n seen (ls ++ rest) = Some (kvs, rest).
Lemma read_seq_stop f n rest : stops n rest -> 1 <= f -> read_seq f n rest = Some ([], rest).
Proof.
  intros B L. destruct f as [|f]; [lia|]. destruct rest as [|[m s] rest]; [reflexivity|]. cbn [stops] in B. cbn [read_seq]. destruct B as [B|[-> B]]; [rewrite (proj2 (Nat.ltb_lt m n) B); reflexivity|].
  rewrite Nat.ltb_irrefl, Nat.eqb_refl, B. reflexivity.
Qed.
Lemma read_map_stop f n seen rest : below n rest -> 1 <= f -> read_map f n seen rest = Some ([], rest).
Proof.
  intros B L. destruct f as [|f]; [lia|]. destruct rest as [|[m s] rest]; [reflexivity|]. cbn [below] in B. cbn [read_map]. rewrite (proj2 (Nat.ltb_lt m n) B). reflexivity.
Qed.
(** The value of a key without anything after the colon. *)
Definition nothing_after (f n : nat) (r : list line) : option (yval * list line) :=
  match r with
  | (m', s') :: _ =>
      if Nat.ltb n m' then read_node f r
      else match (if Nat.eqb n m' then cut_dash s' else None) with
           | Some _ => match read_seq f n r with Some (vs, r') => Some (YSeq vs, r') | None => None end
           | None => Some (YNull, r)
           end
  | [] => Some (YNull, r)
  end.
Lemma read_map_line f n seen K k x r rest v r' : key_written K k -> after_colon x = true -> fresh k seen = true ->
  (match skip_spaces x with
   | [] => nothing_after f n (r ++ rest)
   | y => option_map (fun v => (v, r ++ rest)) (read_inline y)
   end) = Some (v, r') ->
  read_map (S f) n seen (((n, K ++ lit ":" ++ x) :: r) ++ rest) = match read_map f n (k :: seen) r' with Some (kvs, r'') => Some ((k, v) :: kvs, r'') | None => None end.
Proof.
  intros (_ & _ & _ & C & _) A Fr H. cbn [app read_map]. rewrite Nat.ltb_irrefl, Nat.eqb_refl. change (K ++ lit ":" ++ x) with (K ++ COLON :: x). rewrite (C x A), Fr. cbn zeta.
  match goal with |- match ?q with _ => _ end = _ => replace q with (Some (v, r')) by (symmetry; exact H) end. reflexivity.
Qed.
Lemma read_map_bare f n seen K k r rest v r' : key_written K k -> fresh k seen = true -> nothing_after f n (r ++ rest) = Some (v, r') ->
  read_map (S f) n seen (((n, K ++ lit ":") :: r) ++ rest) = match read_map f n (k :: seen) r' with Some (kvs, r'') => Some ((k, v) :: kvs, r'') | None => None end.
Proof. intros W Fr H. apply (read_map_line f n seen K k [] r rest v r' W eq_refl Fr H). Qed.
Lemma pairs_next n ls kvs rest : reads_pairs n ls kvs -> below n rest -> stops n (ls ++ rest) /\ forall m, n < m -> below m (ls ++ rest).
Proof.
  intros (_ & Fi & _) B. destruct Fi as [[_ ->]|(K' & k' & x' & r' & -> & W & _)]; cbn [app].
  - split; [apply below_stops, B|]. intros m L. destruct rest as [|[m' s] rest]; [exact I|]. cbn [below] in *. lia.
  - split; [|intros m L; cbn [below]; lia]. cbn [stops]. right. split; [reflexivity|]. destruct W as (_ & _ & D & _). exact (D x').
Qed.
Lemma elements_next n ls vs rest : reads_elements n ls vs -> stops n rest -> forall m, n < m -> below m (ls ++ rest).
Proof.
  intros (_ & Fi & _) B m L. destruct Fi as [[_ ->]|(s & r & -> & _)]; cbn [app below]; [|lia]. destruct rest as [|[m' s] rest]; [exact I|]. cbn [below stops] in *. lia.
Qed.
Lemma blocks_read : (forall n ls v, block n ls v -> reads_block n ls v) /\ (forall n ls vs, elements n ls vs -> reads_elements n ls vs) /\ (forall n ls kvs, pairs n ls kvs -> reads_pairs n ls kvs).
Proof.
  apply block_ind3.
  - intros n t v H. destruct (proj1 inlines_read t v H) as (NL & C & T & (c & r & E & N1 & N2 & N3 & _) & D & K & R & _). split; [|split].
    + constructor; [|constructor]. repeat (split; [assumption|]). exists c, r. auto.
    + exists t, []. split; [reflexivity|]. rewrite E. intros X. vm_compute in X. injection X as X _. exact (N3 X).
    + intros f rest _ L. destruct f as [|f]; [lia|]. cbn [app read_node]. rewrite D, K, R. reflexivity.
  - intros n ls vs Ne _ (G & Fi & R). destruct Fi as [[-> _]|(s & r & E & N3 & d & D)]; [destruct Ne; reflexivity|]. split; [exact G|]. split; [exists s, r; auto|].
    intros f rest B L. destruct f as [|f]; [lia|]. specialize (R f rest (below_stops n rest B)). rewrite E in R, L |- *. cbn [app read_node] in R |- *. rewrite D, R; [reflexivity|lia].
  - intros n ls kvs Ne Ap _ (G & Fi & Kd & R). destruct Fi as [[-> _]|(K & k & x & r & E & W & A)]; [destruct Ne; reflexivity|]. split; [exact G|]. split.
    + exists (K ++ lit ":" ++ x), r. split; [exact E|]. intros X. assert (J : In COLON (K ++ lit ":" ++ x)) by (apply in_app_iff; right; left; reflexivity). rewrite X in J.
      vm_compute in J. repeat (destruct J as [J|J]; [discriminate J|]). exact J.
    + intros f rest B L. destruct f as [|f]; [lia|]. pose proof (apart_fresh kvs Kd Ap) as Fr.
      specialize (R f rest [] B). rewrite E in R, L |- *. change (((n, K ++ lit ":" ++ x) :: r) ++ rest) with ((n, K ++ COLON :: x) :: (r ++ rest)) in *. cbn [read_node]. destruct W as (_ & _ & D & C & _). rewrite D, C by exact A.
      rewrite R; [reflexivity|lia|exact Fr].
  - intros n. split; [constructor|]. split; [left; auto|]. intros f rest B L. apply read_seq_stop; [exact B|lia].
  - intros n i t child v ls vs _ (G & (s & r0 & E0 & _) & R) _ H'. pose proof H' as (G' & Fi & R'). injection E0 as Es Er. subst s r0. inversion G as [|? ? (NL & C & T & c & q & Et & N1 & N2) Gc]. subst. cbn [snd] in NL, C, T, Et.
    assert (D : cut_dash (lit "- " ++ spaces i ++ t) = Some (2 + i, t)) by (rewrite Et; exact (cut_dash_line i c q N1)). split; [|split].
    + constructor; [|apply Forall_app; auto]. split; [|split; [|split]]; cbn [snd].
      * apply no_newline_app; [apply lit_line; reflexivity|]. apply no_newline_app; [apply spaces_line|exact NL].
      * assert (HT : hd_error t <> Some HASH) by (rewrite Et; intros Q; injection Q as Q; exact (N2 Q)). apply calm_app; [apply calm_chars; reflexivity| |apply spaces_hash, HT]. apply calm_app; [apply spaces_calm|exact C|exact HT].
      * apply tight_app, tight_app, T.
      * exists MINUS, (SPACE :: spaces i ++ t). split; [reflexivity|split; discriminate].
    + right. exists (lit "- " ++ spaces i ++ t), (child ++ ls). split; [reflexivity|]. split; [intros X; vm_compute in X; discriminate X|eauto].
    + intros f rest B L. destruct f as [|f]; [lia|]. rewrite weight_cons, weight_app, !app_length in L. change (List.length (lit "- ")) with 2 in L. rewrite weight_cons in R.
      cbn [app read_seq]. rewrite Nat.ltb_irrefl, Nat.eqb_refl, D. rewrite Et at 1. cbn iota. rewrite <- app_assoc.
      change ((n + (2 + i), t) :: child ++ ls ++ rest) with (((n + (2 + i), t) :: child) ++ ls ++ rest). rewrite R.
      * rewrite R'; [reflexivity|exact B|lia].
      * apply (elements_next n ls vs rest H' B). lia.
      * lia.
  - intros n ls vs _ H'. pose proof H' as (G' & Fi & R'). split; [|split].
    + constructor; [|exact G']. split; [apply lit_line; reflexivity|]. split; [apply calm_chars; reflexivity|]. split; [exists [], MINUS; split; [reflexivity|split; discriminate]|]. exists MINUS, []. split; [reflexivity|split; discriminate].
    + right. exists (lit "-"), ls. split; [reflexivity|]. split; [discriminate|]. exists (1, []). reflexivity.
    + intros f rest B L. destruct f as [|f]; [lia|]. rewrite weight_cons in L. change (List.length (lit "-")) with 1 in L. cbn [app read_seq]. rewrite Nat.ltb_irrefl, Nat.eqb_refl. change (cut_dash (lit "-")) with (Some (1, @nil char)). cbn iota zeta.
      pose proof (elements_next n ls vs rest H' B (S n) ltac:(lia)) as Q. specialize (R' f rest B).
      assert (X : forall z : list line, below (S n) z -> match z with (m', _) :: _ => if Nat.ltb n m' then read_node f z else Some (YNull, z) | [] => Some (YNull, z) end = Some (YNull, z)).
      { intros [|[m' s'] z] Z; [reflexivity|]. cbn [below] in Z. rewrite (proj2 (Nat.ltb_ge n m')) by lia. reflexivity. }
      rewrite X by exact Q. rewrite R' by lia. reflexivity.
  - intros n m child v ls vs Lt _ (Gc & (s & r0 & E0 & _) & Rc) _ H'. pose proof H' as (G' & Fi & R'). split; [|split].
    + constructor; [|apply Forall_app; auto]. split; [apply lit_line; reflexivity|]. split; [apply calm_chars; reflexivity|]. split; [exists [], MINUS; split; [reflexivity|split; discriminate]|]. exists MINUS, []. split; [reflexivity|split; discriminate].
    + right. exists (lit "-"), (child ++ ls). split; [reflexivity|]. split; [discriminate|]. exists (1, []). reflexivity.
    + intros f rest B L. destruct f as [|f]; [lia|]. rewrite weight_cons, weight_app in L. change (List.length (lit "-")) with 1 in L. cbn [app read_seq]. rewrite Nat.ltb_irrefl, Nat.eqb_refl. change (cut_dash (lit "-")) with (Some (1, @nil char)). cbn iota zeta.
      rewrite <- app_assoc. specialize (Rc f (ls ++ rest) (elements_next n ls vs rest H' B m Lt)). specialize (R' f rest B).
      assert (X : match child ++ ls ++ rest with (m', _) :: _ => if Nat.ltb n m' then read_node f (child ++ ls ++ rest) else Some (YNull, child ++ ls ++ rest) | [] => Some (YNull, child ++ ls ++ rest) end = Some (v, ls ++ rest)).
      { etransitivity; [|apply Rc; lia]. rewrite E0. cbn [app]. rewrite (proj2 (Nat.ltb_lt n m) Lt). reflexivity. }
      match goal with |- match ?q with _ => _ end = _ => replace q with (Some (v, ls ++ rest)) by (symmetry; exact X) end. match goal with |- match ?q with _ => _ end = _ => replace q with (Some (vs, rest)) by (symmetry; apply R'; lia) end. reflexivity.
  - intros n. split; [constructor|]. split; [left; auto|]. split; [constructor|]. intros f rest seen B L _. apply read_map_stop; [exact B|lia].
  - intros n K k i V v ls kvs Hk Hv _ (G & Fi & Kd & R). pose proof (key_facts K k Hk) as W. destruct (proj1 inlines_read V v Hv) as (NL & C & T & F & _ & _ & RI & _). split; [|split; [|split]].
    + constructor; [|exact G]. apply (key_line_good n K k); [exact W| | |].
      * apply no_newline_app; [apply spaces_line|exact NL].
      * apply calm_app; [apply calm_chars; reflexivity| |discriminate]. apply calm_app; [apply spaces_calm|exact C|]. pose proof (first_hash V [] F) as Q. rewrite app_nil_r in Q. exact Q.
      * apply tight_app, tight_app, T.
    + right. exists K, k, (spaces (S i) ++ V), ls. auto.
    + constructor; [exact (kind_key K k Hk)|exact Kd].
    + intros f rest seen B L A. destruct f as [|f]; [lia|]. cbn [map fst all_fresh] in A. destruct A as [A1 A2].
      rewrite weight_cons, !app_length in L. change (List.length (lit ":")) with 1 in L.
      etransitivity; [apply (read_map_line f n seen K k (spaces (S i) ++ V) ls rest v (ls ++ rest) W eq_refl A1)|].
      * pose proof (skip_first (S i) V [] F) as Sk. rewrite !app_nil_r in Sk. rewrite Sk. destruct F as (c & q & E & _). rewrite E at 1. cbn iota. rewrite <- E, RI. reflexivity.
      * rewrite R; [reflexivity|exact B|lia|exact A2].
  - intros n K k ls kvs Hk _ H'. pose proof H' as (G & Fi & Kd & R). pose proof (key_facts K k Hk) as W. split; [|split; [|split]].
    + constructor; [|exact G]. apply (bare_key_good n K k W).
    + right. exists K, k, [], ls. auto.
    + constructor; [exact (kind_key K k Hk)|exact Kd].
    + intros f rest seen B L A. destruct f as [|f]; [lia|]. cbn [map fst all_fresh] in A. destruct A as [A1 A2].
      rewrite weight_cons, !app_length in L. change (List.length (lit ":")) with 1 in L.
      etransitivity; [apply (read_map_bare f n seen K k ls rest YNull (ls ++ rest) W A1)|].
      * destruct (pairs_next n ls kvs rest H' B) as [Q _]. assert (X : forall z : list line, stops n z -> nothing_after f n z = Some (YNull, z)); [|apply X, Q].
        intros [|[m' s'] z] Z; [reflexivity|]. cbn [stops] in Z. unfold nothing_after. destruct Z as [Z|[-> Z]].
        -- rewrite (proj2 (Nat.ltb_ge n m')) by lia. rewrite (proj2 (Nat.eqb_neq n m')) by lia. reflexivity.
        -- rewrite Nat.ltb_irrefl, Nat.eqb_refl, Z. reflexivity.
      * rewrite R; [reflexivity|exact B|lia|exact A2].
  - intros n K k m child v ls kvs Hk Lt _ (Gc & (s & r0 & E0 & _) & Rc) _ H'. pose proof H' as (G & Fi & Kd & R). pose proof (key_facts K k Hk) as W. split; [|split; [|split]].
    + constructor; [|apply Forall_app; auto]. apply (bare_key_good n K k W).
    + right. exists K, k, [], (child ++ ls). auto.
    + constructor; [exact (kind_key K k Hk)|exact Kd].
    + intros f rest seen B L A. destruct f as [|f]; [lia|]. cbn [map fst all_fresh] in A. destruct A as [A1 A2].
      rewrite weight_cons, weight_app, !app_length in L. change (List.length (lit ":")) with 1 in L.
      etransitivity; [apply (read_map_bare f n seen K k (child ++ ls) rest v (ls ++ rest) W A1)|].
      * rewrite <- app_assoc. specialize (Rc f (ls ++ rest)). etransitivity; [|apply Rc; [apply (pairs_next n ls kvs rest H' B), Lt|lia]]. rewrite E0. unfold nothing_after. cbn [app]. rewrite (proj2 (Nat.ltb_lt n m) Lt). reflexivity.
      * rewrite R; [reflexivity|exact B|lia|exact A2].
  - intros n K k child vs ls kvs Hk Ne _ (Gc & Fc & Rc) _ H'. pose proof H' as (G & Fi & Kd & R). pose proof (key_facts K k Hk) as W. split; [|split; [|split]].
    + constructor; [|apply Forall_app; auto]. apply (bare_key_good n K k W).
    + right. exists K, k, [], (child ++ ls). auto.
    + constructor; [exact (kind_key K k Hk)|exact Kd].
    + intros f rest seen B L A. destruct f as [|f]; [lia|]. cbn [map fst all_fresh] in A. destruct A as [A1 A2].
      rewrite weight_cons, weight_app, !app_length in L. change (List.length (lit ":")) with 1 in L.
      etransitivity; [apply (read_map_bare f n seen K k (child ++ ls) rest (YSeq vs) (ls ++ rest) W A1)|].
      * rewrite <- app_assoc. destruct Fc as [[-> _]|(s & r & E & _ & d & D)]; [destruct Ne; reflexivity|]. specialize (Rc f (ls ++ rest) (proj1 (pairs_next n ls kvs rest H' B))).
        rewrite E in Rc, L |- *. cbn [app] in Rc |- *. unfold nothing_after. rewrite Nat.ltb_irrefl, Nat.eqb_refl, D. match goal with |- match ?q with _ => _ end = _ => replace q with (Some (vs, ls ++ rest)) by (symmetry; apply Rc; lia) end. reflexivity.
      * rewrite R; [reflexivity|exact B|lia|exact A2].
Qed.

(** ** Texts *)
Lemma shown_text c : Forall shown c -> forallb printable c = true /\ no_newline c.
Proof.
  intros F. split; [apply forallb_forall; intros x I; rewrite Forall_forall in F; exact (shown_printable x (F x I))|]. intros J. rewrite Forall_forall in F. apply F in J. unfold shown in J. change NEWLINE with 0x0A%N in J. lia.
Qed.
Lemma end_line e : line_end e -> no_newline e.
Proof. intros [-> | ->]; [intros []|intros [Q|[]]; discriminate Q]. Qed.
Lemma tail_facts e : line_tail e -> tail_ok e /\ no_newline e.
Proof.
  intros [i e' H|i c e' F H]; split.
  - exists i, e'. split; [exact H|left; reflexivity].
  - apply no_newline_app; [apply spaces_line|apply end_line, H].
  - exists i, e'. split; [exact H|right]. exists c. split; [apply shown_text, F|reflexivity].
  - apply no_newline_app; [apply spaces_line|]. apply no_newline_app; [apply lit_line; reflexivity|]. apply no_newline_app; [apply shown_text, F|apply end_line, H].
Qed.
Lemma layout_content ls raw : layout ls raw -> Forall good_line ls ->
  Forall no_newline raw /\ flat_map content_line raw = ls /\ weight ls <= fold_right (fun l n => List.length l + n) 0 raw.
Proof.
  induction 1 as [|n s e ls raw T H IH|n e ls raw T H IH|n c e ls raw F T H IH]; intros G.
  - repeat split; constructor.
  - inversion G as [|? ? (NL & C & Ti & c & r & E & N1 & N2) G']. subst. cbn [snd] in NL, C, Ti, E. destruct (IH G') as (A & B & W). destruct (tail_facts e T) as [T1 T2]. split; [|split].
    + constructor; [|exact A]. apply no_newline_app; [apply spaces_line|]. apply no_newline_app; assumption.
    + cbn [flat_map]. rewrite B. pose proof (tidied s c e) as Q. unfold spaces. change 0x20%N with SPACE. rewrite Q; auto. rewrite E. reflexivity.
    + rewrite weight_cons. cbn [fold_right]. rewrite !app_length. lia.
  - destruct (IH G) as (A & B & C). split; [|split].
    + constructor; [|exact A]. apply no_newline_app; [apply spaces_line|apply end_line, T].
    + cbn [flat_map]. rewrite B. unfold content_line. rewrite drop_return_end; [|exact T|intros y Q; assert (J : In RETURN (spaces n)) by (rewrite Q; apply in_app_iff; right; left; reflexivity); apply repeat_spec in J; discriminate J].
      replace (spaces n) with (repeat SPACE n ++ []) by (rewrite app_nil_r; reflexivity). rewrite indented_spaces by exact I. reflexivity.
    + cbn [fold_right]. lia.
  - destruct (IH G) as (A & B & C). destruct (shown_text c F) as [P Nl]. split; [|split].
    + constructor; [|exact A]. apply no_newline_app; [apply spaces_line|]. apply no_newline_app; [apply lit_line; reflexivity|]. apply no_newline_app; [exact Nl|apply end_line, T].
    + cbn [flat_map]. rewrite B. unfold content_line, spaces. change 0x20%N with SPACE. change (lit "#" ++ c ++ e) with ((HASH :: c) ++ e). rewrite app_assoc. rewrite drop_return_end; [|exact T|].
      * rewrite indented_spaces by discriminate. change (N.eqb HASH HASH) with true. cbn [forallb]. change (printable HASH) with true. cbn [andb]. rewrite P. reflexivity.
      * intros y Q. destruct c as [|c0 c'] using rev_ind.
        -- apply app_inj_tail in Q as [_ Q]. discriminate Q.
        -- rewrite app_comm_cons, app_assoc in Q. apply app_inj_tail in Q as [_ Q]. subst c0. exact (printable_return _ P c' eq_refl).
    + cbn [fold_right]. lia.
Qed.
Lemma joined_length sep raw : fold_right (fun l n => List.length l + n) 0 raw <= List.length (joined sep raw).
Proof.
  induction raw as [|x raw IH]; [cbn; lia|]. destruct raw as [|y raw]; [cbn; lia|]. change (joined sep (x :: y :: raw)) with (x ++ sep ++ joined sep (y :: raw)). rewrite !app_length. cbn [fold_right] in *. lia.
Qed.
Lemma joined_content raw : Forall no_newline raw -> content_lines (joined [0x0A%N] raw) = flat_map content_line raw.
Proof.
  intros F. destruct raw as [|x raw]; [reflexivity|]. unfold content_lines. change 0x0A%N with NEWLINE.
  match goal with |- flat_map _ ?l = _ => replace l with (x :: raw); [reflexivity|] end. symmetry. apply split_joined; [discriminate|exact F].
Qed.
Lemma nested_shallow : forall d v, nested d v -> shallow d v = true.
Proof.
  induction d as [|d IH]; intros v H; inversion H as [d' v' A B|d' l F|d' l F]; subst.
  - destruct v as [| | |s|l|l]; try reflexivity; [destruct (A l eq_refl)|destruct (B l eq_refl)].
  - destruct v as [| | |s|l|l]; try reflexivity; [destruct (A l eq_refl)|destruct (B l eq_refl)].
  - cbn [shallow]. apply forallb_forall. intros x I. rewrite Forall_forall in F. apply IH, F, I.
  - cbn [shallow]. apply forallb_forall. intros x I. rewrite Forall_forall in F. apply IH. exact (F x I).
Qed.
Lemma start_good : good_line (0, lit "---").
Proof.
  split; [apply lit_line; reflexivity|]. split; [apply calm_chars; reflexivity|]. split; [exists [MINUS; MINUS], MINUS; split; [reflexivity|split; discriminate]|]. exists MINUS, [MINUS; MINUS]. split; [reflexivity|split; discriminate].
Qed.
Lemma document_read t v : document_text t v -> read_document t = Some v.
Proof.
  intros (ls & raw & Ne & B & L & ->). apply nested_shallow in Ne.
  assert (X : Forall good_line ls /\ (forall s r, ls = (0, s) :: r -> s <> lit "---") /\
    match read_node (S (4 * List.length (joined [0x0A%N] raw))) ls with Some (v, []) => if shallow 100 v then Some v else None | _ => None end = Some v).
  { destruct B as (n & B). destruct (proj1 blocks_read n ls v B) as (G & (s & r & E & N) & R). split; [exact G|]. split.
    - intros s' r' E'. rewrite E in E'. injection E' as _ -> _. exact N.
    - assert (W : weight ls <= List.length (joined [0x0A%N] raw)).
      { pose proof (joined_length [0x0A%N] raw). destruct L as [L|L]; destruct (layout_content _ _ L) as (_ & _ & C); try exact G.
        - lia.
        - constructor; [exact start_good|exact G].
        - rewrite weight_cons in C. lia. }
      specialize (R (S (4 * List.length (joined [0x0A%N] raw))) [] I). rewrite app_nil_r in R.
      assert (W1 : 1 <= weight ls). { rewrite E in G |- *. inversion G as [|? ? (_ & _ & _ & c & q & Q & _) _]. subst. cbn [snd] in Q. rewrite weight_cons, Q. cbn [List.length]. lia. }
      rewrite R by lia. rewrite Ne. reflexivity. }
  destruct X as (G & N & X). unfold read_document.
  assert (C : content_lines (joined [0x0A%N] raw) = ls \/ content_lines (joined [0x0A%N] raw) = (0, lit "---") :: ls).
  { destruct L as [L|L]; [left|right]; destruct (layout_content _ _ L) as (A & B' & _); try exact G; try (rewrite (joined_content raw A); exact B').
    constructor; [exact start_good|exact G]. }
  destruct C as [-> | ->].
  - destruct ls as [|[n s] r]; [exact X|]. replace (Nat.eqb n 0 && str_eqb s (lit "---"))%bool with false; [exact X|]. symmetry. destruct n as [|n]; [|reflexivity]. cbn [Nat.eqb andb].
    destruct (str_eqb s (lit "---")) eqn:E; [|reflexivity]. apply str_eqb_eq in E. destruct (N s r eq_refl E).
  - change (Nat.eqb 0 0 && str_eqb (lit "---") (lit "---"))%bool with true. cbn iota. exact X.
Qed.

Lemma read_document_iff t v : read_document t = Some v <-> document_text t v.
Proof. split; [apply read_sound|apply document_read]. Qed.
