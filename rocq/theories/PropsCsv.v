(** Properties C69-C71: CSV files as bytes. *)
From Coq Require Import String.
From Verif Require Import Base BaseFacts Utf8 StrOps Corr Table Charset Converter ModifierKind PathModel Yaml File ChanomaModel
  Configuration Cli Csv CharSpec Spec CorrFacts CorrProps TableFacts CharsetFacts NeoFacts NeoProps PropsConverter PropsNeo PropsPipeline
  FileSpec PathSpec ConfigSpec BinSpec CsvSpec FileProps PathProps ConfigProps BinProps Utf8Props CsvProps PropsFile PropsTableFile.
Local Open Scope string_scope.
Local Open Scope list_scope.

(** The file at [p] can be opened and is [f]. *)
Definition file_at (w : world) (p : path) (f : file) : Prop := w_csv w p = Some (csv_of_file f).
(** A text stored in a file, with or without byte order mark. *)
Definition stores (t : str) (b : list N) : Prop :=
  b = [0xEF; 0xBB; 0xBF]%N ++ encode t \/ (b = encode t /\ hd_error t <> Some 0xFEFF%N).

(** ** C69 *)
Lemma stores_read t b : valid_str t -> stores t b -> csv_of_file (FileBytes b) = map CsvFields (read StartRecord [] [] t).
Proof.
  intros V [->|[-> H]].
  - change ([0xEF; 0xBB; 0xBF]%N ++ encode t) with (encode (0xFEFF%N :: t)). rewrite csv_of_text; [reflexivity|].
    constructor; [reflexivity|exact V].
  - rewrite (csv_of_text t V). destruct t as [|c t]; [reflexivity|]. cbn [strip_text].
    destruct (N.eqb_spec c 0xFEFF) as [->|_]; [destruct H; reflexivity|reflexivity].
Qed.
Lemma rows_items_total rows : ~ In [] rows -> exists items, rows_items rows items.
Proof.
  induction rows as [|row rows IH]; intros N.
  - exists []. exists []. split; [constructor|reflexivity].
  - destruct IH as (items & parts & F & _); [intros H; apply N; right; exact H|].
    destruct row as [|x row] using rev_ind; [destruct N; left; reflexivity|].
    eexists. exists (map (fun f => Item f x) row :: parts). split; [|reflexivity]. constructor; [|exact F].
    exists row, x. split; reflexivity.
Qed.
(** The rows of a CSV text, the first being the header, become the items of the table. *)
Theorem C69_text_loads : forall w p rows t b items, csv_text rows t -> valid_str t -> stores t b ->
  file_at w p (FileBytes b) ->
  (table_from_csv_path w p = Ok (Table items (OriginFile p)) <-> rows_items (tl rows) items).
Proof.
  intros w p rows t b items T V S F. unfold file_at in F. rewrite (stores_read t b V S), (read_text rows t T) in F.
  rewrite C39_iff. split.
  - intros (recs & rs & W & _ & E & R & _). rewrite F in W. injection W as <-.
    assert (Q : rs = tl rows).
    { destruct rows as [|r rows]; cbn in E; [destruct rs; [reflexivity|discriminate]|].
      cbn [tl]. revert rs E R. induction rows as [|x l IH]; intros [|y rs] E _; try discriminate; [reflexivity|].
      cbn in E. injection E as -> E. f_equal. symmetry.
      clear - E. revert rs E. induction l as [|a l IH]; intros [|z rs] E; try discriminate; [reflexivity|]. cbn in E.
      injection E as -> E. f_equal. apply IH, E. }
    subst rs. exact R.
  - intros R. exists (map CsvFields rows), (tl rows). split; [exact F|]. split; [destruct rows; discriminate|].
    split; [destruct rows; reflexivity|]. split; [exact R|reflexivity].
Qed.
Print Assumptions C69_text_loads.
(** The rows of a text are unique. *)
Theorem C69_rows_unique : forall rows rows' t, csv_text rows t -> csv_text rows' t -> rows = rows'.
Proof. intros rows rows' t H H'. apply read_text in H. apply read_text in H'. congruence. Qed.
Print Assumptions C69_rows_unique.
(** The kind of line end, quoting where it is not needed, blank lines and a byte order mark make no difference. *)
Theorem C69_same_rows_same_table : forall w p q rows t t' b b', csv_text rows t -> csv_text rows t' ->
  valid_str t -> valid_str t' -> stores t b -> stores t' b' ->
  file_at w p (FileBytes b) -> file_at w q (FileBytes b') -> exists items,
  table_from_csv_path w p = Ok (Table items (OriginFile p)) /\ table_from_csv_path w q = Ok (Table items (OriginFile q)).
Proof.
  intros w p q rows t t' b b' T T' V V' S S' F F'. destruct (rows_items_total (tl rows)) as (items & R).
  { intros H. apply (read_nonempty t StartRecord [] []). rewrite (read_text rows t T). destruct rows; [destruct H|right; exact H]. }
  exists items. split; [apply (C69_text_loads w p rows t b)|apply (C69_text_loads w q rows t' b')]; assumption.
Qed.
Print Assumptions C69_same_rows_same_table.
(** Rows of the example: a byte order mark, a blank line, all three line ends, quotation marks and no final line end.
    White space is kept: [d, e] maps d to a space followed by e. *)
Definition ex_csv_text : str := [LF] ++ lit "from,to" ++ [CR; LF] ++ lit "a,b,""x""" ++ [CR] ++ lit "d, e" ++ [LF] ++
  lit """,""""" ++ [LF] ++ lit """,q""z".
Definition bytes_world (b : list N) : world := csv_world (csv_of_file (FileBytes b)).
Example C69_case : csv_text [map lit ["from"; "to"]; map lit ["a"; "b"; "x"]; map lit ["d"; " e"]; [lit ","""++[LF]; lit "q""z"]] ex_csv_text /\
  valid_str ex_csv_text /\ stores ex_csv_text (BOM ++ encode ex_csv_text) /\
  table_from_csv_path (bytes_world (BOM ++ encode ex_csv_text)) ex_path =
    Ok (Table [Item (lit "a") (lit "x"); Item (lit "b") (lit "x"); Item (lit "d") (lit " e"); Item (lit ","""++[LF]) (lit "q""z")] (OriginFile ex_path)).
Proof.
  assert (P : forall s, forallb (fun c => negb (N.eqb c 0x2C || N.eqb c 0x0D || N.eqb c 0x0A)) s = true ->
    Forall (fun x => x <> 0x2C /\ x <> 0x0D /\ x <> 0x0A)%N s).
  { intros s H. apply Forall_forall. intros x Hx. rewrite forallb_forall in H. apply H in Hx.
    rewrite negb_true_iff, !orb_false_iff, !N.eqb_neq in Hx. tauto. }
  split.
  { apply (ct_blank [LF]); [apply le_lf|].
    apply (ct_row _ (lit "from,to") [CR; LF]); [|discriminate|apply le_crlf|].
    { apply (rt_more (lit "from") (lit "from") _ (lit "to")); [|apply rt_one]; apply ft_plain; try (apply P; reflexivity); discriminate. }
    apply (ct_row _ (lit "a,b,""x""") [CR]); [|discriminate|apply le_cr|].
    { apply (rt_more (lit "a") (lit "a") _ (lit "b,""x""")); [apply ft_plain; [apply P; reflexivity|discriminate]|].
      apply (rt_more (lit "b") (lit "b") _ (lit """x""")); [apply ft_plain; [apply P; reflexivity|discriminate]|].
      apply rt_one, (ft_quoted (lit "x") (lit "x")). apply db_other; [discriminate|constructor]. }
    apply (ct_row _ (lit "d, e") [LF]); [|discriminate|apply le_lf|].
    { apply (rt_more (lit "d") (lit "d") _ (lit " e")); [|apply rt_one]; apply ft_plain; try (apply P; reflexivity); discriminate. }
    apply ct_last; [|discriminate].
    apply (rt_more _ (lit """,""""" ++ [LF] ++ lit """") _ (lit "q""z")).
    - apply (ft_quoted (lit ","""++[LF]) (lit ",""""" ++ [LF])). apply db_other; [discriminate|]. apply db_quote.
      apply db_other; [discriminate|constructor].
    - apply rt_one, ft_plain; [apply P; reflexivity|discriminate]. }
  split; [repeat (constructor; [reflexivity|]); constructor|]. split; [left; reflexivity|]. vm_compute. reflexivity.
Qed.

(** ** C70 *)
(** Whatever the bytes, loading a CSV file gives a table or the documented error... *)
Theorem C70_never_panics : forall w p f, file_at w p f ->
  table_from_csv_path w p = Err CsvFileLoadError \/ exists t, table_from_csv_path w p = Ok t.
Proof.
  intros w p f F. apply C39_fail. intros recs W H. unfold file_at in F. rewrite F in W. injection W as <-.
  apply (csv_of_file_nonempty f). destruct (csv_of_file f); [destruct H|right; exact H].
Qed.
Print Assumptions C70_never_panics.
(** ... a table for every text in UTF-8... *)
Theorem C70_text_loads : forall w p t, valid_str t -> file_at w p (FileBytes (encode t)) -> exists tb, table_from_csv_path w p = Ok tb.
Proof.
  intros w p t V F. pose proof F as F'. unfold file_at in F'. rewrite (csv_of_text t V) in F'.
  destruct (rows_items_total (tl (read StartRecord [] [] (strip_text t)))) as (items & R).
  { intros H. apply (read_nonempty (strip_text t) StartRecord [] []). destruct (read StartRecord [] [] (strip_text t)); [destruct H|right; exact H]. }
  exists (Table items (OriginFile p)). apply C39_iff. eexists. eexists. split; [exact F'|].
  split; [destruct (read StartRecord [] [] (strip_text t)); discriminate|].
  split; [|split; [exact R|reflexivity]]. destruct (read StartRecord [] [] (strip_text t)); reflexivity.
Qed.
Print Assumptions C70_text_loads.
(** ... the error if reading fails anywhere... *)
Theorem C70_read_error : forall w p b, file_at w p (FileFails b) -> table_from_csv_path w p = Err CsvFileLoadError.
Proof.
  intros w p b F. destruct (C70_never_panics w p _ F) as [E|(t & E)]; [exact E|]. apply C39_iff in E as (recs & rows & W & H & E & _).
  unfold file_at in F. rewrite F in W. injection W as <-. cbn [csv_of_file] in *.
  destruct (map record_of (read_complete StartRecord [] [] (strip_bom b))) as [|x l]; [destruct H; reflexivity|].
  cbn [app tl] in E. assert (I : In CsvIoError (map CsvFields rows)) by (rewrite <- E; apply in_app_iff; right; left; reflexivity).
  apply in_map_iff in I as (r & I & _). discriminate.
Qed.
Print Assumptions C70_read_error.
(** Before the failure the reader gives the records of the file as far as they are complete, whatever follows. *)
Lemma read_complete_prefix r : forall b s rec cur, exists l, read s rec cur (b ++ r) = read_complete s rec cur b ++ l /\ (r = [] -> length l <= 1).
Proof.
  induction b as [|x b IH]; intros s rec cur; cbn [app read_complete].
  - exists (read s rec cur r). split; [reflexivity|]. intros ->. destruct s; cbn; lia.
  - cbn [read]. destruct (step s x) as [s' []]; try apply IH. destruct (IH s' [] []) as (l & E & H). exists l. rewrite E. split; [reflexivity|exact H].
Qed.
Theorem C70_records_before_failure : forall b, 3 <= length b -> exists l, csv_of_file (FileFails b) = l ++ [CsvIoError] /\
  (forall r, exists l', csv_of_file (FileBytes (b ++ r)) = l ++ l') /\
  exists l', csv_of_file (FileBytes b) = l ++ l' /\ length l' <= 1.
Proof.
  intros b Hb. exists (map record_of (read_complete StartRecord [] [] (strip_bom b))). split; [reflexivity|].
  assert (S : forall r, strip_bom (b ++ r) = strip_bom b ++ r).
  { intros r. destruct b as [|x [|y [|z b]]]; cbn in Hb; try lia. cbn [app strip_bom]. destruct (_ && _)%bool; reflexivity. }
  cbn [csv_of_file]. split.
  - intros r. rewrite S. destruct (read_complete_prefix r (strip_bom b) StartRecord [] []) as (l & E & _). rewrite E, map_app. eauto.
  - destruct (read_complete_prefix [] (strip_bom b) StartRecord [] []) as (l & E & H). rewrite app_nil_r in E. rewrite E, map_app.
    eexists. split; [reflexivity|]. rewrite map_length. apply H. reflexivity.
Qed.
Print Assumptions C70_records_before_failure.
Example C70_failure_case : csv_of_file (FileFails (encode (lit "a,b" ++ [LF] ++ lit "c,d" ++ [LF] ++ lit "e"))) =
  [CsvFields [lit "a"; lit "b"]; CsvFields [lit "c"; lit "d"]; CsvIoError].
Proof. reflexivity. Qed.
(** ... and otherwise the error exactly if a field after the header is not UTF-8. *)
Definition is_utf8 (f : list N) : Prop := exists s, valid_str s /\ encode s = f.
Lemma record_of_iff l : (exists fs, record_of l = CsvFields fs) <-> Forall is_utf8 l.
Proof.
  unfold record_of. assert (E : (exists fs, decode_fields l = Some fs) <-> Forall is_utf8 l).
  { induction l as [|f l IH]; cbn [decode_fields]; [split; [constructor|eauto]|]. rewrite Forall_cons_iff, <- IH. unfold is_utf8. split.
    - intros (fs & H). destruct (decode f) as [s|] eqn:D; [|discriminate]. apply decode_iff in D.
      destruct (decode_fields l) as [t|]; [|discriminate]. eauto.
    - intros [(s & D) (t & ->)]. apply decode_iff in D. rewrite D. eauto. }
  rewrite <- E. destruct (decode_fields l); split; intros (fs & H); eauto; discriminate.
Qed.
Lemma records_ok rows : Forall (Forall is_utf8) rows -> ~ In [] rows ->
  exists rs, map record_of rows = map CsvFields rs /\ ~ In [] rs.
Proof.
  induction 1 as [|row rows R _ IH]; intros N; [exists []; split; [reflexivity|intros []]|].
  destruct IH as (rs & E & N'); [intros H; apply N; right; exact H|]. apply record_of_iff in R as (fs & R).
  exists (fs :: rs). cbn [map]. rewrite R, E. split; [reflexivity|]. intros [->|H]; [|exact (N' H)].
  apply (record_of_nonempty row); [intros ->; apply N; left; reflexivity|exact R].
Qed.
Theorem C70_utf8_iff : forall w p rows b, csv_text rows b -> (forall r, b <> [0xEF; 0xBB; 0xBF]%N ++ r) -> file_at w p (FileBytes b) ->
  ((exists t, table_from_csv_path w p = Ok t) <-> Forall (Forall is_utf8) (tl rows)).
Proof.
  intros w p rows b T N F. pose proof F as F'. unfold file_at in F'. cbn [csv_of_file] in F'.
  destruct (strip_bom_iff b) as [E|(r & E & _)]; [|destruct (N r E)]. rewrite E, (read_text rows b T) in F'. split.
  - intros (t & H). apply C39_iff in H as (recs & rs & W & _ & E' & _). rewrite F' in W. injection W as <-.
    apply Forall_forall. intros row Hr. apply record_of_iff.
    assert (I : In (record_of row) (map CsvFields rs)).
    { rewrite <- E'. destruct rows; [destruct Hr|]. cbn in *. apply in_map, Hr. }
    apply in_map_iff in I as (fs & I & _). eauto.
  - intros A. destruct (records_ok _ A) as (rs & R & Ne).
    { intros H. apply (read_nonempty b StartRecord [] []). rewrite (read_text rows b T). destruct rows; [destruct H|right; exact H]. }
    destruct (rows_items_total rs Ne) as (items & I). exists (Table items (OriginFile p)). apply C39_iff.
    exists (map record_of rows), rs. split; [exact F'|]. split.
    { destruct rows as [|h rows]; [discriminate|]. cbn. unfold record_of. destruct (decode_fields h); discriminate. }
    split; [|split; [exact I|reflexivity]]. rewrite <- R. destruct rows; reflexivity.
Qed.
Print Assumptions C70_utf8_iff.
Example C70_case :
  table_from_csv_path (bytes_world (encode (lit "x,y") ++ [LF; 0xFF; COMMA; 0x61]%N)) ex_path = Err CsvFileLoadError /\
  table_from_csv_path (bytes_world ([0xFF; LF]%N ++ encode (lit "x,y"))) ex_path = Ok (Table [Item (lit "x") (lit "y")] (OriginFile ex_path)) /\
  table_from_csv_path (bytes_world (encode (lit "h") ++ LF :: encode (lit """a""b,c""d"))) ex_path = Ok (Table [Item (lit "ab") (lit "c""d")] (OriginFile ex_path)) /\
  table_from_csv_path (bytes_world []) ex_path = Ok (Table [] (OriginFile ex_path)) /\
  csv_text [[[0xFF]%N]; [lit "x"; lit "y"]] ([0xFF; LF]%N ++ encode (lit "x,y")).
Proof.
  repeat split; try (vm_compute; reflexivity).
  assert (P : forall x, (x <> 0x2C /\ x <> 0x0D /\ x <> 0x0A)%N -> x <> 0x22%N -> field_text [x] [x]).
  { intros x H Q. apply ft_plain; [constructor; [exact H|constructor]|cbn; congruence]. }
  apply (ct_row _ [0xFF]%N [LF]); [|discriminate|apply le_lf|].
  - apply rt_one, P; repeat split; discriminate.
  - apply ct_last; [|discriminate]. apply (rt_more (lit "x") (lit "x") _ (lit "y")); [|apply rt_one]; apply P; repeat split; discriminate.
Qed.

(** ** C71 *)
(** Items whose strings are Rust strings. *)
Definition valid_items (items : list item) : Prop := Forall (fun it => valid_str (from it) /\ valid_str (to it)) items.
Lemma export_rows_ok o c : Forall (fun row => 2 <= length row) (to_csv_records o c) /\
  (valid_items (c o) -> Forall (Forall valid_str) (to_csv_records o c)).
Proof.
  unfold to_csv_records. destruct (C38_lemma (c o)) as (_ & G & _). split.
  - apply Forall_forall. intros row H. apply in_map_iff in H as ((k & vs) & <- & H). apply G in H as (_ & N).
    cbn. rewrite app_length. cbn. destruct vs; [contradiction|cbn; lia].
  - intros V. unfold valid_items in V. rewrite Forall_forall in V. apply Forall_forall. intros row H.
    apply in_map_iff in H as ((k & vs) & <- & H). apply G in H as (-> & N). cbn [fst snd].
    set (l := filter _ (c o)) in *. assert (L : forall it, In it l -> In it (c o) /\ to it = k).
    { intros it Hi. apply filter_In in Hi as [Hi K]. destruct (str_eq_dec (to it) k); [auto|discriminate]. }
    clearbody l. apply Forall_app. split.
    + apply Forall_forall. intros x Hx. apply in_map_iff in Hx as (it & <- & Hi). apply V, L, Hi.
    + constructor; [|constructor]. destruct l as [|it l]; [contradiction|]. destruct (L it (or_introl eq_refl)) as [Hi <-]. apply V, Hi.
Qed.
Lemma rows_nonempty rows : Forall (fun row : list str => 2 <= length row) rows -> Forall (fun row => row <> []) rows.
Proof. intros F. eapply Forall_impl; [|exact F]. intros [|f row]; [cbn; lia|discriminate]. Qed.
(** The bytes written are a CSV text with one row per replacement: the characters replaced, then the replacement. *)
Theorem C71_export_text : forall o c, valid_items (c o) -> exists t, to_csv_bytes o c = encode t /\ valid_str t /\
  csv_text (to_csv_records o c) t.
Proof.
  intros o c V. exists (export_text (to_csv_records o c)). destruct (export_rows_ok o c) as [L W]. split; [apply to_csv_bytes_text|].
  split; [apply valid_export, W, V|]. pose proof (write_records_text (to_csv_records o c) [] (rows_nonempty _ L) [] ct_nil) as H.
  rewrite !app_nil_r in H. exact H.
Qed.
Print Assumptions C71_export_text.
Lemma csv_path_tl w w' p h h' recs : h <> CsvIoError -> h' <> CsvIoError -> w_csv w p = Some (h :: recs) -> w_csv w' p = Some (h' :: recs) ->
  table_from_csv_path w p = table_from_csv_path w' p.
Proof. intros H H' W W'. unfold table_from_csv_path. rewrite W, W'. destruct h, h'; try contradiction; reflexivity. Qed.
(** An export written to a file, with or without further line ends, reads as its rows without the first. *)
Lemma export_file o c w p t : valid_items (c o) -> csv_text [] t -> valid_str t -> strip_text t = t ->
  file_at w p (FileBytes (to_csv_bytes o c ++ encode t)) ->
  table_from_csv_path w p = table_from_csv_path (csv_world (map CsvFields (to_csv_records o c))) p.
Proof.
  intros V T Vt St F. destruct (export_rows_ok o c) as [L W]. unfold file_at in F.
  rewrite to_csv_bytes_text, <- encode_app in F. rewrite csv_of_text in F by (apply valid_app; split; [apply valid_export, W, V|exact Vt]).
  destruct (strip_export (to_csv_records o c) t L St) as (rows' & E1 & E2 & N & E3). rewrite E3, (read_export rows' t N T) in F.
  destruct rows' as [|r rs]; destruct (to_csv_records o c) as [|r' rs']; try discriminate.
  - unfold table_from_csv_path. rewrite F. reflexivity.
  - cbn in E1. subst rs'. cbn [map] in *. apply (csv_path_tl w _ p (CsvFields r) (CsvFields r') (map CsvFields rs)); [discriminate|discriminate|exact F|reflexivity].
Qed.
(** What comes back is everything except the group with the least replacement (C40, now for the bytes). *)
Theorem C71_reload : forall o c w p, valid_items (c o) -> file_at w p (FileBytes (to_csv_bytes o c)) ->
  exists t lost, table_from_csv_path w p = Ok t /\ Permutation (table_items t ++ lost) (c o) /\
    (c o <> [] -> lost <> []) /\
    (forall a b, In a lost -> In b lost -> to a = to b) /\
    (forall a b, In a lost -> In b (table_items t) -> lex_lt (to a) (to b)).
Proof.
  intros o c w p V F. rewrite (export_file o c w p [] V ct_nil); [|constructor|reflexivity|rewrite app_nil_r; exact F].
  apply C40_drop with (o := o). reflexivity.
Qed.
Print Assumptions C71_reload.
(** Below a header line everything comes back. *)
Theorem C71_with_header : forall o c w p h row, valid_items (c o) -> row_text row h -> h <> [] -> valid_str h -> hd_error h <> Some 0xFEFF%N ->
  file_at w p (FileBytes (encode (h ++ [LF]) ++ to_csv_bytes o c)) ->
  exists t, table_from_csv_path w p = Ok t /\ Permutation (table_items t) (c o).
Proof.
  intros o c w p h row V R Hh Vh B F. destruct (C71_export_text o c V) as (t & E & Vt & T). rewrite E, <- encode_app in F.
  apply C40_header with (o := o) (h := CsvFields row); [discriminate|].
  rewrite F. rewrite (stores_read ((h ++ [LF]) ++ t)).
  - rewrite (read_text (row :: to_csv_records o c)); [reflexivity|]. rewrite <- app_assoc. apply ct_row; [exact R|exact Hh|apply le_lf|exact T].
  - rewrite !valid_app. split; [|exact Vt]. split; [exact Vh|apply valid_one; reflexivity].
  - right. split; [reflexivity|]. destruct h; [contradiction|exact B].
Qed.
Print Assumptions C71_with_header.
(** The tool prints the CSV text of the preset and an extra line feed... *)
Lemma preset_valid o : valid_items (table_corr (builder_preset (sub o 0) table_new) (sub o 1)).
Proof.
  rewrite builder_preset_new. unfold valid_items. apply Forall_forall. intros it H.
  change (In it ALL_items) in H. apply ALL_items_rel in H as (c & t & R & ->). apply PRESET_rel in R.
  assert (A : forallb (fun q => is_scalar (fst q) && is_scalar (snd q)) PRESET = true) by (vm_compute; reflexivity).
  rewrite forallb_forall in A. apply A in R. apply andb_true_iff in R as [R1 R2]. cbn [fst snd] in *.
  split; (constructor; [assumption|constructor]).
Qed.
Lemma tool_start o : hd_error (export_text (to_csv_records (sub o 1) (table_corr (builder_preset (sub o 0) table_new)))) = Some 0x3000%N.
Proof. rewrite builder_preset_new. unfold to_csv_records, table_corr, t_corr, synth. vm_compute. reflexivity. Qed.
Theorem C71_tool_prints : forall o, exists rows t, output_main o (lit "csv") = OutCsv rows /\ csv_text rows t /\ valid_str t /\
  hd_error t = Some 0x3000%N /\ output_csv o = Ok (t ++ [LF]).
Proof.
  intros o. pose proof (preset_valid o) as V. pose proof (tool_start o) as S. unfold output_csv, output_csv_text.
  eexists. exists (export_text (to_csv_records (sub o 1) (table_corr (builder_preset (sub o 0) table_new)))).
  split; [reflexivity|]. revert V S. generalize (table_corr (builder_preset (sub o 0) table_new)). intros c V S.
  destruct (export_rows_ok (sub o 1) c) as [L W]. pose proof (valid_export _ (W V)) as Vt.
  split. { pose proof (write_records_text (to_csv_records (sub o 1) c) [] (rows_nonempty _ L) [] ct_nil) as H. rewrite !app_nil_r in H. exact H. }
  split; [exact Vt|]. split; [exact S|]. rewrite to_csv_bytes_text, (decode_encode _ Vt). reflexivity.
Qed.
Print Assumptions C71_tool_prints.
(** ... which as a configuration file acts like the preset, except that the ideographic space stays. *)
Theorem C71_tool_reload : forall o text, output_csv o = Ok text ->
  forall o' w p, has_extension p (lit "csv") -> file_at w p (FileBytes (encode text)) -> exists c, from_config_file o' w p = Ok c /\
    forall s out, result c s out <-> pointwise (fun c t => preset_rel c t /\ c <> 0x3000%N) s out.
Proof.
  intros o text H o' w p X F. destruct (C71_tool_prints o) as (rows & t & M & T & V & S & E). rewrite H in E. apply Ok_inj in E. subst text.
  apply (C59_csv_reload o _ rows M o' w p X). refine (eq_trans F _). f_equal.
  rewrite (stores_read (t ++ [LF])).
  - rewrite (read_text rows (t ++ [LF])); [reflexivity|]. clear - T.
    induction T as [|row b R N|row b e rows t R N L T IH|e rows t L T IH].
    + apply (ct_blank [LF] [] []); [apply le_lf|apply ct_nil].
    + apply (ct_row row b [LF] [] []); [exact R|exact N|apply le_lf|apply ct_nil].
    + rewrite <- !app_assoc. apply ct_row; assumption.
    + rewrite <- app_assoc. apply ct_blank; assumption.
  - apply valid_app. split; [exact V|apply valid_one; reflexivity].
  - right. split; [reflexivity|]. clear - S. destruct t as [|x t]; [discriminate S|]. cbn [hd_error app] in *. intros Q. injection S as S. injection Q as Q. discriminate (eq_trans (eq_sym S) Q).
Qed.
Print Assumptions C71_tool_reload.
(** Quotation marks, commas and line ends in items; a byte order mark as first character. *)
Definition ex_special : list item := [Item (lit """") (lit ","); Item [0xFEFF]%N (lit "a"); Item [LF] (lit "b"); Item [] (lit "b")].
Example C71_case : valid_items ex_special /\
  to_csv_bytes no_order (synth ex_special) =
    encode (lit """"""""",""," ++ [0x22; LF] ++ [0xFEFF]%N ++ lit ",a" ++ [LF] ++ [QUOTE; LF; QUOTE] ++ lit ",,b" ++ [LF])%N /\
  table_from_csv_path (bytes_world (to_csv_bytes no_order (synth ex_special))) ex_path =
    Ok (Table [Item [0xFEFF]%N (lit "a"); Item [LF] (lit "b"); Item [] (lit "b")] (OriginFile ex_path)) /\
  (exists text, output_csv other_order = Ok text /\ firstn 8 text = [0x3000; COMMA; 0x20; LF; 0xFF01; COMMA; 0x21; LF]%N) /\
  write_record [[]] = [QUOTE; QUOTE; LF].
Proof.
  split; [repeat constructor|]. split; [vm_compute; reflexivity|]. split; [vm_compute; reflexivity|]. split; [|reflexivity].
  eexists. split; vm_compute; reflexivity.
Qed.
