(** Lemmas about CSV bytes: reading texts of the grammar, writing, UTF-8 decoding. *)
From Verif Require Import Base BaseFacts Utf8 Corr Table Charset File Cli Csv CsvSpec Utf8Props FileSpec FileProps.

(** ** Reading *)
Lemma read_copy f : Forall (fun x => x <> COMMA /\ x <> CR /\ x <> LF) f -> forall rec cur t,
  read InField rec cur (f ++ t) = read InField rec (cur ++ f) t.
Proof.
  induction 1 as [|x f (H1 & H2 & H3) _ IH]; intros rec cur t.
  - cbn [app]. rewrite app_nil_r. reflexivity.
  - cbn [app read step]. unfold step_unquoted, is_terminator.
    rewrite (proj2 (N.eqb_neq x COMMA) H1), (proj2 (N.eqb_neq x CR) H2), (proj2 (N.eqb_neq x LF) H3). cbn [orb].
    rewrite IH, <- app_assoc. reflexivity.
Qed.
Lemma rq_open rec t : read StartField rec [] (0x22%N :: t) = read InQuoted rec [] t.
Proof. reflexivity. Qed.
Lemma rq_close rec cur t : read InQuoted rec cur (0x22%N :: t) = read AfterQuote rec cur t.
Proof. reflexivity. Qed.
Lemma rq_again rec cur t : read AfterQuote rec cur (0x22%N :: t) = read InQuoted rec (cur ++ [0x22%N]) t.
Proof. reflexivity. Qed.
Lemma rq_comma rec cur t : read InField rec cur (0x2C%N :: t) = read StartField (rec ++ [cur]) [] t.
Proof. reflexivity. Qed.
Lemma read_quoted f b : doubled f b -> forall rec cur t, read InQuoted rec cur (b ++ t) = read InQuoted rec (cur ++ f) t.
Proof.
  induction 1 as [|f b _ IH|x f b H _ IH]; intros rec cur t.
  - rewrite app_nil_r. reflexivity.
  - cbn [app]. rewrite rq_close, rq_again, IH, <- app_assoc. reflexivity.
  - cbn [app read step]. unfold QUOTE. rewrite (proj2 (N.eqb_neq _ _) H). rewrite IH, <- app_assoc. reflexivity.
Qed.
(** After a field the reader behaves as inside an unquoted field. *)
Definition ended (s : reader_state) : Prop := s = StartField \/ s = InField \/ s = AfterQuote.
Definition starts_unquoted (t : list N) : Prop := t = [] \/ exists x r, t = x :: r /\ (x = COMMA \/ x = CR \/ x = LF).
Lemma ended_same s rec cur t : ended s -> starts_unquoted t -> read s rec cur t = read InField rec cur t.
Proof.
  intros E [->|(x & r & -> & X)]; destruct E as [->|[->| ->]]; try reflexivity; cbn [read step]; unfold step_field;
    destruct X as [->|[->| ->]]; reflexivity.
Qed.
Lemma read_field f b : field_text f b -> forall rec t, starts_unquoted t ->
  read StartField rec [] (b ++ t) = read InField rec f t.
Proof.
  intros [P H|c D] rec t T.
  - destruct f as [|x f].
    + cbn [app]. apply ended_same; [left; reflexivity|exact T].
    + inversion P as [|? ? (H1 & H2 & H3) P']; subst. cbn [app read step]. unfold step_field.
      assert (Q : N.eqb x QUOTE = false) by (apply N.eqb_neq; intros ->; apply H; reflexivity).
      rewrite Q. unfold step_unquoted, is_terminator.
      rewrite (proj2 (N.eqb_neq x COMMA) H1), (proj2 (N.eqb_neq x CR) H2), (proj2 (N.eqb_neq x LF) H3). cbn [orb app].
      rewrite read_copy by exact P'. reflexivity.
  - rewrite <- app_comm_cons, <- app_assoc, rq_open, (read_quoted f c D). cbn [app]. rewrite rq_close.
    apply ended_same; [right; right; reflexivity|exact T].
Qed.
Lemma read_row row b : row_text row b -> forall rec t, starts_unquoted t -> (forall x r, t = x :: r -> x <> COMMA) ->
  exists pre f, row = pre ++ [f] /\ read StartField rec [] (b ++ t) = read InField (rec ++ pre) f t.
Proof.
  induction 1 as [f b F|f b row r F _ IH]; intros rec t T C.
  - exists [], f. split; [reflexivity|]. rewrite app_nil_r. apply read_field; assumption.
  - destruct (IH (rec ++ [f]) t T C) as (pre & g & -> & E). exists (f :: pre), g. split; [reflexivity|].
    rewrite <- app_assoc. rewrite (read_field f b F).
    + cbn [app]. rewrite rq_comma, E, <- app_assoc. reflexivity.
    + right. exists COMMA. cbn [app]. eexists. split; [reflexivity|]. left. reflexivity.
Qed.
Lemma text_start row b : row_text row b -> forall x r, b = x :: r -> x <> CR /\ x <> LF.
Proof.
  assert (F : forall f b, field_text f b -> forall x r, b = x :: r -> x <> CR /\ x <> LF).
  { intros f b' [P H|c D] x r E.
    - subst f. inversion P; subst. unfold CR, LF. tauto.
    - injection E as <- _. split; discriminate. }
  intros [f c H|f c row' r' H _] x r E.
  - apply (F f c H x r E).
  - destruct c as [|y c].
    + injection E as <- _. split; discriminate.
    + injection E as <- _. apply (F f _ H y c eq_refl).
Qed.
Lemma read_start_record row b t : row_text row b -> b <> [] -> forall rec cur,
  read StartRecord rec cur (b ++ t) = read StartField rec cur (b ++ t).
Proof.
  intros R N rec cur. destruct b as [|x b]; [contradiction|]. destruct (text_start _ _ R x b eq_refl) as [H1 H2].
  cbn [app read step]. unfold is_terminator. rewrite (proj2 (N.eqb_neq x CR) H1), (proj2 (N.eqb_neq x LF) H2). reflexivity.
Qed.
Lemma read_line_end e : line_end e -> forall t, read StartRecord [] [] (e ++ t) = read StartRecord [] [] t.
Proof. intros [] t; reflexivity. Qed.
Lemma read_end_record e : line_end e -> forall rec cur t, read InField rec cur (e ++ t) = (rec ++ [cur]) :: read StartRecord [] [] t.
Proof. intros [] rec cur t; reflexivity. Qed.
Lemma read_text rows t : csv_text rows t -> read StartRecord [] [] t = rows.
Proof.
  induction 1 as [|row b R N|row b e rows t R N E _ IH|e rows t E _ IH].
  - reflexivity.
  - rewrite <- (app_nil_r b), (read_start_record row b [] R N).
    destruct (read_row row b R [] []) as (pre & f & -> & E); [left; reflexivity|intros; discriminate|]. rewrite E. reflexivity.
  - rewrite (read_start_record row b _ R N).
    destruct (read_row row b R [] (e ++ t)) as (pre & f & -> & X).
    + right. destruct E; do 2 eexists; (split; [reflexivity|]); unfold COMMA, CR, LF; auto.
    + intros x r H. destruct E; cbn in H; injection H as <- _; discriminate.
    + rewrite X, (read_end_record e E), IH. reflexivity.
  - rewrite (read_line_end e E). exact IH.
Qed.
(** No record is without fields. *)
Lemma read_nonempty b : forall s rec cur, ~ In [] (read s rec cur b).
Proof.
  induction b as [|x b IH]; intros s rec cur; cbn [read].
  - destruct s; cbn [In]; intros [H|[]] || intros []; destruct rec; discriminate.
  - destruct (step s x) as [s' []]; try apply IH. intros [H|H]; [destruct rec; discriminate|exact (IH _ _ _ H)].
Qed.
Lemma read_complete_nonempty b : forall s rec cur, ~ In [] (read_complete s rec cur b).
Proof.
  induction b as [|x b IH]; intros s rec cur; cbn [read_complete]; [intros []|].
  destruct (step s x) as [s' []]; try apply IH. intros [H|H]; [destruct rec; discriminate|exact (IH _ _ _ H)].
Qed.
Lemma record_of_nonempty l : l <> [] -> record_of l <> CsvFields [].
Proof.
  destruct l as [|f l]; [contradiction|]. intros _. unfold record_of. cbn [decode_fields].
  destruct (decode f), (decode_fields l); discriminate.
Qed.
Lemma csv_of_file_nonempty f : ~ In (CsvFields []) (csv_of_file f).
Proof.
  destruct f as [b|b]; cbn [csv_of_file]; rewrite ?in_app_iff, in_map_iff.
  - intros (l & E & H). apply (record_of_nonempty l); [|exact E]. intros ->. exact (read_nonempty _ _ _ _ H).
  - intros [(l & E & H)|[E|[]]]; [|discriminate]. apply (record_of_nonempty l); [|exact E].
    intros ->. exact (read_complete_nonempty _ _ _ _ H).
Qed.

(** ** UTF-8 *)
Lemma eqb_is a b : a = b -> N.eqb a b = true.
Proof. intros ->. apply N.eqb_refl. Qed.
Ltac bools := repeat match goal with
  | H : context [N.ltb ?a ?b] |- _ => destruct (N.ltb_spec a b)
  | H : context [N.leb ?a ?b] |- _ => destruct (N.leb_spec a b)
  | H : context [N.eqb ?a ?b] |- _ => destruct (N.eqb_spec a b)
  | |- context [N.ltb ?a ?b] => destruct (N.ltb_spec a b)
  | |- context [N.leb ?a ?b] => destruct (N.leb_spec a b)
  | |- context [N.eqb ?a ?b] => destruct (N.eqb_spec a b) end; cbn [andb orb] in *; try discriminate; try reflexivity; try lia.
Lemma cont_mod x : is_cont (0x80 + x mod 64) = true.
Proof. pose proof (dm x) as [_ H]. revert H. unfold is_cont. generalize (x mod 64)%N. intros y H. bools. Qed.
Lemma decode_1 x r : (x < 0x80)%N -> decode (x :: r) = option_map (cons x) (decode r).
Proof. intros H. cbn [decode]. rewrite (proj2 (N.ltb_lt _ _) H). reflexivity. Qed.
Lemma decode_2 x y r : (0xC2 <= x < 0xE0)%N -> is_cont y = true ->
  decode (x :: y :: r) = option_map (cons ((x - 0xC0) * 64 + (y - 0x80))%N) (decode r).
Proof.
  intros H C. cbn [decode]. replace (N.ltb x 0x80) with false by (symmetry; apply N.ltb_ge; lia).
  replace (N.leb 0xC2 x) with true by (symmetry; apply N.leb_le; lia).
  replace (N.ltb x 0xE0) with true by (symmetry; apply N.ltb_lt; lia). rewrite C. reflexivity.
Qed.
Lemma decode_3 x y z r : second3_ok x y = true -> is_cont z = true ->
  decode (x :: y :: z :: r) = option_map (cons ((x - 0xE0) * 4096 + (y - 0x80) * 64 + (z - 0x80))%N) (decode r).
Proof.
  intros H C. assert (X : (0xE0 <= x)%N) by (unfold second3_ok in H; bools). cbn [decode].
  replace (N.ltb x 0x80) with false by (symmetry; apply N.ltb_ge; lia).
  replace (N.ltb x 0xE0) with false by (symmetry; apply N.ltb_ge; lia). rewrite andb_false_r, H, C. reflexivity.
Qed.
Lemma decode_4 x y z u r : second4_ok x y = true -> is_cont z = true -> is_cont u = true ->
  decode (x :: y :: z :: u :: r) =
  option_map (cons ((x - 0xF0) * 262144 + (y - 0x80) * 4096 + (z - 0x80) * 64 + (u - 0x80))%N) (decode r).
Proof.
  intros H C D. assert (X : (0xF0 <= x)%N) by (unfold second4_ok in H; bools).
  assert (Y : second3_ok x y = false) by (unfold second3_ok; bools). cbn [decode].
  replace (N.ltb x 0x80) with false by (symmetry; apply N.ltb_ge; lia).
  replace (N.ltb x 0xE0) with false by (symmetry; apply N.ltb_ge; lia). rewrite andb_false_r, Y, H, C, D. reflexivity.
Qed.
Lemma decode_char c r : is_scalar c = true -> decode (encode_char c ++ r) = option_map (cons c) (decode r).
Proof.
  intros S. assert (S' : (c < 0xD800 \/ 0xE000 <= c < 0x110000)%N).
  { unfold is_scalar in S. rewrite orb_true_iff, andb_true_iff, !N.ltb_lt, N.leb_le in S. lia. }
  unfold encode_char. rewrite !dd4096, !dd64.
  pose proof (cont_mod c) as K0. pose proof (cont_mod (c / 64)) as K1. pose proof (cont_mod (c / 64 / 64)) as K2.
  pose proof (dm c) as [c1 c2]. pose proof (dm (c / 64)) as [c3 c4]. pose proof (dm (c / 64 / 64)) as [c5 c6].
  set (a0 := (c mod 64)%N) in *. set (a1 := ((c / 64) mod 64)%N) in *. set (a2 := ((c / 64 / 64) mod 64)%N) in *.
  set (h1 := (c / 64)%N) in *. set (h2 := (h1 / 64)%N) in *. set (h3 := (h2 / 64)%N) in *.
  clearbody a0 a1 a2 h1 h2 h3.
  enc_cases; cbn [app].
  - apply decode_1. assumption.
  - rewrite decode_2 by (assumption || lia). do 2 f_equal. lia.
  - rewrite decode_3; [do 2 f_equal; lia| |assumption]. unfold second3_ok, is_cont in *. bools.
  - rewrite decode_4; [do 2 f_equal; lia| |assumption..]. unfold second4_ok, is_cont in *. bools.
Qed.
Lemma decode_encode s : valid_str s -> decode (encode s) = Some s.
Proof.
  induction 1 as [|c s H _ IH]; [reflexivity|]. change (encode (c :: s)) with (encode_char c ++ encode s).
  rewrite decode_char by exact H. rewrite IH. reflexivity.
Qed.
Lemma encode_2 x y : (0xC2 <= x < 0xE0)%N -> is_cont y = true ->
  is_scalar ((x - 0xC0) * 64 + (y - 0x80))%N = true /\ encode_char ((x - 0xC0) * 64 + (y - 0x80))%N = [x; y].
Proof.
  intros H C. assert (Y : (0x80 <= y < 0xC0)%N) by (unfold is_cont in C; bools).
  set (c := ((x - 0xC0) * 64 + (y - 0x80))%N). split; [unfold is_scalar, c; bools|].
  assert (E1 : (c / 64 = x - 0xC0)%N) by (unfold c; rewrite N.div_add_l by discriminate; rewrite (N.div_small (y - 0x80)) by lia; lia).
  assert (E2 : (c mod 64 = y - 0x80)%N) by (pose proof (dm c) as [H1 H2]; unfold c in *; lia).
  unfold encode_char. rewrite E1, E2. unfold c. bools. repeat f_equal; lia.
Qed.
Lemma encode_3 x y z : second3_ok x y = true -> is_cont z = true ->
  let c := ((x - 0xE0) * 4096 + (y - 0x80) * 64 + (z - 0x80))%N in is_scalar c = true /\ encode_char c = [x; y; z].
Proof.
  intros H C c. assert (Z : (0x80 <= z < 0xC0)%N) by (unfold is_cont in C; bools).
  assert (Y : (0x80 <= y < 0xC0 /\ 0xE0 <= x < 0xF0 /\ (x = 0xE0 -> 0xA0 <= y) /\ (x = 0xED -> y < 0xA0))%N)
    by (unfold second3_ok, is_cont in H; bools).
  assert (S : is_scalar c = true) by (unfold is_scalar, c; bools). split; [exact S|].
  assert (E : (c = ((x - 0xE0) * 64 + (y - 0x80)) * 64 + (z - 0x80))%N) by (unfold c; lia).
  assert (E1 : (c / 64 = (x - 0xE0) * 64 + (y - 0x80))%N)
    by (rewrite E, N.div_add_l by discriminate; rewrite (N.div_small (z - 0x80)) by lia; lia).
  assert (E2 : (c mod 64 = z - 0x80)%N) by (pose proof (dm c) as [H1 H2]; lia).
  assert (E3 : (c / 64 / 64 = x - 0xE0)%N)
    by (rewrite E1, N.div_add_l by discriminate; rewrite (N.div_small (y - 0x80)) by lia; lia).
  assert (E4 : ((c / 64) mod 64 = y - 0x80)%N) by (pose proof (dm (c / 64)) as [H1 H2]; lia).
  unfold encode_char. rewrite dd64, E3, E4, E2, E1. clear S. unfold c. clear E E1 E2 E3 E4. clearbody c. bools. repeat f_equal; lia.
Qed.
Lemma encode_4 x y z u : second4_ok x y = true -> is_cont z = true -> is_cont u = true ->
  let c := ((x - 0xF0) * 262144 + (y - 0x80) * 4096 + (z - 0x80) * 64 + (u - 0x80))%N in
  is_scalar c = true /\ encode_char c = [x; y; z; u].
Proof.
  intros H C D c. assert (Z : (0x80 <= z < 0xC0)%N) by (unfold is_cont in C; bools).
  assert (U : (0x80 <= u < 0xC0)%N) by (unfold is_cont in D; bools).
  assert (Y : (0x80 <= y < 0xC0 /\ 0xF0 <= x < 0xF5 /\ (x = 0xF0 -> 0x90 <= y) /\ (x = 0xF4 -> y < 0x90))%N)
    by (unfold second4_ok, is_cont in H; bools).
  assert (S : (0x10000 <= c < 0x110000)%N) by (unfold c; lia).
  split; [unfold is_scalar; bools|].
  assert (E : (c = (((x - 0xF0) * 64 + (y - 0x80)) * 64 + (z - 0x80)) * 64 + (u - 0x80))%N) by (unfold c; lia).
  assert (E1 : (c / 64 = ((x - 0xF0) * 64 + (y - 0x80)) * 64 + (z - 0x80))%N)
    by (rewrite E, N.div_add_l by discriminate; rewrite (N.div_small (u - 0x80)) by lia; lia).
  assert (E2 : (c mod 64 = u - 0x80)%N) by (pose proof (dm c) as [H1 H2]; lia).
  assert (E3 : (c / 64 / 64 = (x - 0xF0) * 64 + (y - 0x80))%N)
    by (rewrite E1, N.div_add_l by discriminate; rewrite (N.div_small (z - 0x80)) by lia; lia).
  assert (E4 : ((c / 64) mod 64 = z - 0x80)%N) by (pose proof (dm (c / 64)) as [H1 H2]; lia).
  assert (E5 : (c / 64 / 64 / 64 = x - 0xF0)%N)
    by (rewrite E3, N.div_add_l by discriminate; rewrite (N.div_small (y - 0x80)) by lia; lia).
  assert (E6 : ((c / 64 / 64) mod 64 = y - 0x80)%N) by (pose proof (dm (c / 64 / 64)) as [H1 H2]; lia).
  unfold encode_char. rewrite !dd4096, !dd64, E5, E6, E4, E2. clear E1 E2 E3 E4 E5 E6.
  replace (N.ltb c 0x80) with false by (symmetry; apply N.ltb_ge; lia).
  replace (N.ltb c 0x800) with false by (symmetry; apply N.ltb_ge; lia).
  replace (N.ltb c 0x10000) with false by (symmetry; apply N.ltb_ge; lia). repeat f_equal; lia.
Qed.
Lemma decode_some n : forall b s, length b <= n -> decode b = Some s -> valid_str s /\ encode s = b.
Proof.
  assert (Step : forall b' s r c, is_scalar c = true -> b' = encode_char c ++ r -> option_map (cons c) (decode r) = Some s ->
    (forall t, decode r = Some t -> valid_str t /\ encode t = r) -> valid_str s /\ encode s = b').
  { intros b' s r c Hc -> H IH. destruct (decode r) as [t|]; [|discriminate]. injection H as <-. destruct (IH t eq_refl) as [V E].
    split; [constructor; assumption|]. change (encode (c :: t)) with (encode_char c ++ encode t). rewrite E. reflexivity. }
  induction n as [|n IH]; intros b s L H.
  - destruct b; [|inversion L]. injection H as <-. split; [constructor|reflexivity].
  - destruct b as [|x r]; [injection H as <-; split; [constructor|reflexivity]|]. cbn [length] in L. cbn [decode] in H.
    destruct (N.ltb_spec x 0x80) as [Hx|Hx].
    { apply (Step _ s r x); [unfold is_scalar; bools|unfold encode_char; bools|exact H|intros t; apply IH; lia]. }
    destruct r as [|y r]; [discriminate H|]. cbn [length] in L.
    destruct (N.leb 0xC2 x && N.ltb x 0xE0 && is_cont y)%bool eqn:B2.
    { apply andb_true_iff in B2 as [B2 C]. apply andb_true_iff in B2 as [B1 B2]. apply N.leb_le in B1. apply N.ltb_lt in B2.
      destruct (encode_2 x y (conj B1 B2) C) as [S E]. apply (Step _ s r _ S); [rewrite E; reflexivity|exact H|intros t; apply IH; lia]. }
    destruct r as [|z r]; [discriminate H|]. cbn [length] in L.
    destruct (second3_ok x y && is_cont z)%bool eqn:B3.
    { apply andb_true_iff in B3 as [B3 C]. destruct (encode_3 x y z B3 C) as [S E].
      apply (Step _ s r _ S); [rewrite E; reflexivity|exact H|intros t; apply IH; lia]. }
    destruct r as [|u r]; [discriminate H|]. cbn [length] in L.
    destruct (second4_ok x y && is_cont z && is_cont u)%bool eqn:B4; [|discriminate H].
    apply andb_true_iff in B4 as [B4 D]. apply andb_true_iff in B4 as [B4 C]. destruct (encode_4 x y z u B4 C D) as [S E].
    apply (Step _ s r _ S); [rewrite E; reflexivity|exact H|intros t; apply IH; lia].
Qed.
Lemma decode_iff b s : decode b = Some s <-> valid_str s /\ encode s = b.
Proof.
  split; [exact (decode_some (length b) b s (le_n _))|]. intros [V <-]. exact (decode_encode s V).
Qed.

(** ** Texts: reading the encoding of a text is reading the text *)
Lemma enc_bytes c : (c < 0x80)%N /\ encode_char c = [c] \/
  (0x80 <= c)%N /\ encode_char c <> [] /\ Forall (fun b => 0x80 <= b)%N (encode_char c).
Proof.
  unfold encode_char. enc_cases; [left; auto|right..]; (split; [lia|]); (split; [discriminate|]); repeat constructor;
    repeat match goal with |- context [N.modulo ?a ?b] => generalize (N.modulo a b); intro
                         | |- context [N.div ?a ?b] => generalize (N.div a b); intro end; lia.
Qed.
Definition high (s : reader_state) : reader_state := match s with InQuoted => InQuoted | _ => InField end.
Lemma step_high s x : (0x80 <= x)%N -> step s x = (high s, Copy).
Proof.
  intros H. assert (A : forall k, (k < 0x80)%N -> N.eqb x k = false) by (intros k K; apply N.eqb_neq; lia).
  destruct s; cbn [step high]; unfold step_field, step_unquoted, is_terminator, QUOTE, COMMA, CR, LF; rewrite !A by reflexivity; reflexivity.
Qed.
Lemma read_high bs : Forall (fun b => 0x80 <= b)%N bs -> bs <> [] -> forall s rec cur t,
  read s rec cur (bs ++ t) = read (high s) rec (cur ++ bs) t.
Proof.
  induction 1 as [|x bs X F IH]; intros N s rec cur t; [contradiction|]. cbn [app read]. rewrite (step_high s x X).
  destruct bs as [|y bs]; [reflexivity|]. rewrite IH by discriminate. rewrite <- app_assoc. destruct s; reflexivity.
Qed.
Lemma encode_app a b : encode (a ++ b) = encode a ++ encode b.
Proof. unfold encode. apply flat_map_app. Qed.
Lemma encode_one c : encode [c] = encode_char c.
Proof. cbn. apply app_nil_r. Qed.
Lemma read_encode s : forall st rec cur,
  read st (map encode rec) (encode cur) (encode s) = map (map encode) (read st rec cur s).
Proof.
  induction s as [|c s IH]; intros st rec cur.
  - destruct st; cbn [encode flat_map read map]; try reflexivity; rewrite map_app; reflexivity.
  - change (encode (c :: s)) with (encode_char c ++ encode s). destruct (enc_bytes c) as [[L E]|(G & N & F)].
    + rewrite E. cbn [app read]. destruct (step st c) as [s' []].
      * apply IH.
      * rewrite <- IH, encode_app, encode_one, E. reflexivity.
      * rewrite <- IH, map_app. reflexivity.
      * cbn [map]. rewrite <- IH, map_app. reflexivity.
    + rewrite (read_high _ F N). cbn [read]. rewrite (step_high st c G), <- IH, encode_app, encode_one. reflexivity.
Qed.
Lemma valid_app a b : valid_str (a ++ b) <-> valid_str a /\ valid_str b.
Proof. unfold valid_str. apply Forall_app. Qed.
Lemma read_valid s : valid_str s -> forall st rec cur, Forall valid_str rec -> valid_str cur ->
  Forall (Forall valid_str) (read st rec cur s).
Proof.
  induction 1 as [|c s C V IH]; intros st rec cur R K; cbn [read].
  - destruct st; repeat constructor; apply Forall_app; split; auto.
  - destruct (step st c) as [s' []].
    + apply IH; assumption.
    + apply IH; [assumption|]. apply valid_app. split; [assumption|]. constructor; [exact C|constructor].
    + apply IH; [|constructor]. apply Forall_app. split; auto.
    + constructor; [apply Forall_app; split; auto|]. apply IH; constructor.
Qed.
Lemma record_of_encode l : Forall valid_str l -> record_of (map encode l) = CsvFields l.
Proof.
  intros H. unfold record_of. assert (E : decode_fields (map encode l) = Some l); [|rewrite E; reflexivity].
  induction H as [|s l V _ IH]; [reflexivity|]. cbn [map decode_fields]. rewrite (decode_encode s V), IH. reflexivity.
Qed.
Definition strip_text (s : str) : str := match s with c :: r => if N.eqb c 0xFEFF then r else s | [] => [] end.
Lemma strip_bom_iff b : strip_bom b = b \/ exists r, b = BOM ++ r /\ strip_bom b = r.
Proof.
  destruct b as [|x [|y [|z r]]]; try (left; reflexivity). cbn [strip_bom].
  destruct (N.eqb_spec x 0xEF), (N.eqb_spec y 0xBB), (N.eqb_spec z 0xBF); subst; cbn [andb]; try (left; reflexivity).
  right. exists r. split; reflexivity.
Qed.
Lemma strip_bom_encode s : valid_str s -> strip_bom (encode s) = encode (strip_text s).
Proof.
  intros V. destruct s as [|c s]; [reflexivity|]. cbn [strip_text]. destruct (N.eqb_spec c 0xFEFF) as [->|H]; [reflexivity|].
  destruct (strip_bom_iff (encode (c :: s))) as [E|(r & E & _)]; [exact E|].
  change (encode_char c ++ encode s = encode_char 0xFEFF%N ++ r) in E. inversion V; subst.
  apply enc_app_inj in E; [|assumption|reflexivity]. destruct E. contradiction.
Qed.
Lemma records_of_encode ls : Forall (Forall valid_str) ls -> map record_of (map (map encode) ls) = map CsvFields ls.
Proof.
  induction 1 as [|l ls L _ IH]; [reflexivity|]. cbn [map]. rewrite (record_of_encode l L), IH. reflexivity.
Qed.
Lemma csv_of_text s : valid_str s -> csv_of_file (FileBytes (encode s)) = map CsvFields (read StartRecord [] [] (strip_text s)).
Proof.
  intros V. cbn [csv_of_file]. rewrite (strip_bom_encode s V).
  assert (V' : valid_str (strip_text s)).
  { destruct s as [|c s]; [exact V|]. cbn [strip_text]. destruct (N.eqb c 0xFEFF); [inversion V; assumption|exact V]. }
  refine (eq_trans (f_equal (map record_of) (read_encode (strip_text s) StartRecord [] [])) _).
  apply records_of_encode, read_valid; [exact V'|constructor|constructor].
Qed.

(** ** Writing *)
Lemma doubled_map f : doubled f (flat_map (fun b => if N.eqb b QUOTE then [QUOTE; QUOTE] else [b]) f).
Proof.
  induction f as [|x f IH]; [constructor|]. cbn [flat_map]. destruct (N.eqb_spec x QUOTE) as [->|H].
  - apply db_quote, IH.
  - apply db_other; assumption.
Qed.
Lemma write_field_text f : field_text f (write_field f).
Proof.
  unfold write_field. destruct (existsb needs_quotes f) eqn:E.
  - apply ft_quoted, doubled_map.
  - assert (F : Forall (fun x => x <> COMMA /\ x <> QUOTE /\ x <> CR /\ x <> LF) f).
    { induction f as [|x f IH]; [constructor|]. cbn [existsb] in E. apply orb_false_iff in E as [E1 E2]. constructor; [|exact (IH E2)].
      unfold needs_quotes in E1. rewrite !orb_false_iff, !N.eqb_neq in E1. tauto. }
    apply ft_plain.
    + eapply Forall_impl; [|exact F]. cbn. unfold COMMA, CR, LF. tauto.
    + destruct F as [|x f (_ & Q & _) _]; [discriminate|]. cbn. intros H. injection H as ->. apply Q. reflexivity.
Qed.
Lemma write_fields_text l : l <> [] -> row_text l (write_fields l).
Proof.
  induction l as [|f [|g l] IH]; intros N; [contradiction|apply rt_one, write_field_text|].
  apply rt_more; [apply write_field_text|apply IH; discriminate].
Qed.
Lemma write_empty f l : write_fields (f :: l) = [] -> f = [] /\ l = [].
Proof.
  destruct l; cbn [write_fields].
  - unfold write_field. destruct (existsb needs_quotes f); [discriminate|]. auto.
  - destruct (write_field f); discriminate.
Qed.
(** A record is written as a row with a line feed. *)
Lemma write_record_text l : l <> [] -> exists b, row_text l b /\ b <> [] /\ write_record l = b ++ [LF].
Proof.
  intros N. unfold write_record. destruct (write_fields l) as [|x b] eqn:E.
  - destruct l as [|f l]; [contradiction|]. apply write_empty in E as [-> ->]. exists [QUOTE; QUOTE].
    split; [apply rt_one, (ft_quoted [] []), db_nil|]. split; [discriminate|reflexivity].
  - exists (x :: b). split; [rewrite <- E; apply write_fields_text, N|]. split; [discriminate|reflexivity].
Qed.
Lemma write_records_text rows t : Forall (fun l => l <> []) rows -> forall rows', csv_text rows' t ->
  csv_text (rows ++ rows') (flat_map write_record rows ++ t).
Proof.
  induction 1 as [|l rows N _ IH]; intros rows' H; [exact H|]. cbn [app flat_map].
  destruct (write_record_text l N) as (b & R & B & ->). rewrite <- !app_assoc.
  apply (ct_row l b [LF]); [exact R|exact B|apply le_lf|apply IH, H].
Qed.
(** Writing encoded fields is encoding the written text. *)
Lemma needs_quotes_high x : (0x80 <= x)%N -> needs_quotes x = false.
Proof.
  intros H. unfold needs_quotes, QUOTE, COMMA, CR, LF. rewrite !(proj2 (N.eqb_neq _ _)) by lia. reflexivity.
Qed.
Lemma needs_quotes_encode f : existsb needs_quotes (encode f) = existsb needs_quotes f.
Proof.
  induction f as [|c f IH]; [reflexivity|]. change (encode (c :: f)) with (encode_char c ++ encode f).
  rewrite existsb_app, IH. cbn [existsb]. f_equal. destruct (enc_bytes c) as [[L ->]|(G & _ & F)].
  - cbn. apply orb_false_r.
  - rewrite (needs_quotes_high c G). induction F as [|x l X _ IHl]; [reflexivity|]. cbn [existsb]. rewrite (needs_quotes_high x X). exact IHl.
Qed.
Definition dbl (b : N) : list N := if N.eqb b QUOTE then [QUOTE; QUOTE] else [b].
Lemma dbl_high l : Forall (fun b => 0x80 <= b)%N l -> flat_map dbl l = l.
Proof.
  induction 1 as [|x l X _ IH]; [reflexivity|]. cbn [flat_map]. unfold dbl at 1.
  rewrite (proj2 (N.eqb_neq x QUOTE)) by (unfold QUOTE; lia). cbn [app]. rewrite IH. reflexivity.
Qed.
Lemma dbl_encode f : flat_map dbl (encode f) = encode (flat_map dbl f).
Proof.
  induction f as [|c f IH]; [reflexivity|]. change (encode (c :: f)) with (encode_char c ++ encode f). cbn [flat_map].
  rewrite flat_map_app, IH, encode_app. f_equal. destruct (enc_bytes c) as [[L E]|(G & _ & F)].
  - rewrite E. cbn [flat_map]. rewrite app_nil_r. unfold dbl. destruct (N.eqb_spec c QUOTE) as [->|H]; [reflexivity|].
    rewrite encode_one, E. reflexivity.
  - rewrite (dbl_high _ F). unfold dbl. rewrite (proj2 (N.eqb_neq c QUOTE)) by (unfold QUOTE; lia). rewrite encode_one. reflexivity.
Qed.
Lemma write_field_encode f : write_field (encode f) = encode (write_field f).
Proof.
  unfold write_field. rewrite needs_quotes_encode. destruct (existsb needs_quotes f); [|reflexivity].
  fold dbl. rewrite dbl_encode. change (QUOTE :: flat_map dbl f ++ [QUOTE]) with ([QUOTE] ++ flat_map dbl f ++ [QUOTE]).
  rewrite !encode_app. reflexivity.
Qed.
Lemma write_fields_encode l : write_fields (map encode l) = encode (write_fields l).
Proof.
  induction l as [|f [|g l] IH]; [reflexivity|apply write_field_encode|].
  change (write_fields (map encode (f :: g :: l))) with (write_field (encode f) ++ COMMA :: write_fields (map encode (g :: l))).
  rewrite IH, write_field_encode. change (write_fields (f :: g :: l)) with (write_field f ++ [COMMA] ++ write_fields (g :: l)).
  rewrite !encode_app. reflexivity.
Qed.
Lemma encode_nil s : encode s = [] -> s = [].
Proof.
  destruct s as [|c s]; [reflexivity|]. change (encode (c :: s)) with (encode_char c ++ encode s). intros H.
  apply app_eq_nil in H as [H _]. destruct (enc_nonempty c H).
Qed.
Lemma write_record_encode l : write_record (map encode l) = encode (write_record l).
Proof.
  unfold write_record. rewrite write_fields_encode. destruct (write_fields l) as [|c s]; [reflexivity|].
  rewrite encode_app. destruct (encode (c :: s)) as [|x b] eqn:E; [apply encode_nil in E; discriminate|]. reflexivity.
Qed.
Definition export_text (rows : list (list str)) : str := flat_map write_record rows.
Lemma to_csv_bytes_text o c : to_csv_bytes o c = encode (export_text (to_csv_records o c)).
Proof.
  unfold to_csv_bytes, export_text. induction (to_csv_records o c) as [|row rows IH]; [reflexivity|]. cbn [flat_map].
  rewrite encode_app, IH, write_record_encode. reflexivity.
Qed.
Lemma valid_one c : (c < 0xD800)%N -> valid_str [c].
Proof. intros H. constructor; [|constructor]. unfold is_scalar. rewrite (proj2 (N.ltb_lt _ _) H). reflexivity. Qed.
Lemma valid_write_field f : valid_str f -> valid_str (write_field f).
Proof.
  intros V. unfold write_field. destruct (existsb needs_quotes f); [|exact V].
  apply (valid_app [QUOTE]). split; [apply valid_one; reflexivity|]. apply valid_app. split; [|apply valid_one; reflexivity].
  induction V as [|c f C _ IH]; [constructor|]. cbn [flat_map]. apply valid_app. split; [|exact IH].
  destruct (N.eqb c QUOTE); repeat constructor; exact C.
Qed.
Lemma valid_write_fields l : Forall valid_str l -> valid_str (write_fields l).
Proof.
  induction 1 as [|f l F H IH]; [constructor|]. destruct l as [|g l]; [apply valid_write_field, F|].
  change (valid_str (write_field f ++ [COMMA] ++ write_fields (g :: l))). rewrite !valid_app.
  split; [apply valid_write_field, F|]. split; [apply valid_one; reflexivity|exact IH].
Qed.
Lemma valid_write_record l : Forall valid_str l -> valid_str (write_record l).
Proof.
  intros H. apply valid_write_fields in H. unfold write_record. destruct (write_fields l) as [|c s].
  - repeat constructor.
  - apply valid_app. split; [exact H|apply valid_one; reflexivity].
Qed.
Lemma valid_export rows : Forall (Forall valid_str) rows -> valid_str (export_text rows).
Proof.
  induction 1 as [|l rows L _ IH]; [constructor|]. cbn. apply valid_app. split; [apply valid_write_record, L|exact IH].
Qed.

(** ** A byte order mark at the start of an export only touches the first field of the first row *)
Lemma strip_write_record f g l t : exists f', strip_text (write_record (f :: g :: l) ++ t) = write_record (f' :: g :: l) ++ t.
Proof.
  assert (W : forall f, exists b, write_fields (f :: g :: l) = write_field f ++ b /\ b <> [] /\
    write_record (f :: g :: l) = write_field f ++ b ++ [LF]).
  { intros h. exists (COMMA :: write_fields (g :: l)). split; [reflexivity|]. split; [discriminate|].
    unfold write_record. change (write_fields (h :: g :: l)) with (write_field h ++ COMMA :: write_fields (g :: l)).
    destruct (write_field h ++ COMMA :: write_fields (g :: l)) as [|x b] eqn:E.
    - apply app_eq_nil in E as [_ E]. discriminate.
    - rewrite <- E, <- app_assoc. reflexivity. }
  assert (B : forall h, write_record (h :: g :: l) = write_field h ++ (COMMA :: write_fields (g :: l)) ++ [LF]).
  { intros h. destruct (W h) as (b & E & _ & ->). change (write_fields (h :: g :: l)) with (write_field h ++ COMMA :: write_fields (g :: l)) in E.
    apply app_inv_head in E. rewrite E. reflexivity. }
  assert (D : forall h, strip_text h = h \/ exists r, h = 0xFEFF%N :: r /\ strip_text h = r).
  { intros [|c r]; [left; reflexivity|]. cbn [strip_text]. destruct (N.eqb_spec c 0xFEFF) as [->|_]; [right; exists r; auto|left; reflexivity]. }
  destruct (D (write_record (f :: g :: l) ++ t)) as [E|(r & E & ->)]; [exists f; exact E|].
  rewrite B in E. unfold write_field in E at 1. destruct (existsb needs_quotes f) eqn:Q; [discriminate E|].
  destruct f as [|c f]; [discriminate E|]. injection E as -> <-. exists f. rewrite B.
  cbn [existsb] in Q. apply orb_false_iff in Q as [_ Q].
  assert (Wf : write_field f = f) by (unfold write_field; rewrite Q; reflexivity). rewrite Wf. reflexivity.
Qed.
Lemma strip_export rows t : Forall (fun row => 2 <= length row) rows -> strip_text t = t ->
  exists rows', tl rows' = tl rows /\ length rows' = length rows /\ Forall (fun row => row <> []) rows' /\
    strip_text (export_text rows ++ t) = export_text rows' ++ t.
Proof.
  intros F T. assert (N : Forall (fun row : list str => row <> []) rows).
  { eapply Forall_impl; [|exact F]. intros [|f row]; [cbn; lia|discriminate]. }
  destruct rows as [|row rows].
  - exists []. repeat split; [constructor|exact T].
  - inversion F as [|? ? L F']; subst. destruct row as [|f [|g l]]; [cbn in L; lia|cbn in L; lia|].
    cbn [export_text flat_map]. rewrite <- app_assoc. destruct (strip_write_record f g l (export_text rows ++ t)) as (f' & E).
    exists ((f' :: g :: l) :: rows). inversion N; subst. repeat split; [constructor; [discriminate|assumption]|].
    cbn [export_text flat_map]. rewrite <- app_assoc. exact E.
Qed.
Lemma read_export rows t : Forall (fun row => row <> []) rows -> csv_text [] t ->
  read StartRecord [] [] (export_text rows ++ t) = rows.
Proof.
  intros N T. apply read_text. pose proof (write_records_text rows t N [] T) as H. rewrite app_nil_r in H. exact H.
Qed.
