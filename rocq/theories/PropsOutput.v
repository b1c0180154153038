(** Property C79: the output tool as a process. *)
From Coq Require Import String.
From Verif Require Import Base BaseFacts Utf8 StrOps Corr Table Charset Converter ModifierKind PathModel Yaml File ChanomaModel Configuration
  Cli Csv Process OutputTool Spec FileSpec PathSpec ConfigSpec BinSpec CsvSpec ProcessSpec PropsConverter PropsPipeline CsvProps PropsCsv PropsTableFile PropsFile PropsConfig.
Local Open Scope string_scope.
Local Open Scope list_scope.

(** ** Arguments *)
Inductive options_of : list str -> list str -> Prop :=
| oo_end : options_of [] []
| oo_escape : options_of [lit "--"] []
| oo_option a v r us : format_option a v -> options_of r us -> options_of (a ++ r) (v :: us).
Lemma cut_equals_eq s : let '(n, v) := cut_equals s in ~ In EQUALS n /\ s = n ++ match v with Some v => EQUALS :: v | None => [] end.
Proof.
  induction s as [|c s IH]; cbn [cut_equals]; [split; [intros []|reflexivity]|].
  destruct (N.eqb_spec c EQUALS) as [->|N]; [split; [intros []|reflexivity]|].
  destruct (cut_equals s) as [n v]. destruct IH as [I E]. split; [intros [X|X]; [exact (N X)|exact (I X)]|cbn [app]; f_equal; exact E].
Qed.
Lemma cut_equals_app n v : ~ In EQUALS n -> cut_equals (n ++ EQUALS :: v) = (n, Some v).
Proof.
  induction n as [|c n IH]; intros N; cbn [app cut_equals]; [rewrite N.eqb_refl; reflexivity|].
  destruct (N.eqb_spec c EQUALS) as [->|_]; [destruct N; left; reflexivity|]. rewrite IH; [reflexivity|]. intros I. apply N. right. exact I.
Qed.
Lemma out_classify_spec a : match out_classify a with
  | OWith v => format_option [a] v
  | OPending => a = lit "-f" \/ a = lit "--format"
  | OPlain => plain a
  | OEscape => a = lit "--"
  | OStop => True
  end.
Proof.
  unfold out_classify. destruct a as [|c r]; [right; intros r E; discriminate E|].
  destruct (N.eqb_spec c DASH) as [->|N]; [|right; intros x E; apply N; injection E as E _; exact E].
  destruct r as [|c' r']; [left; reflexivity|].
  destruct (N.eqb_spec c' DASH) as [->|N].
  - destruct r' as [|x r']; [reflexivity|]. pose proof (cut_equals_eq (x :: r')) as H. destruct (cut_equals (x :: r')) as [n v]. destruct H as [_ E].
    destruct (str_eqb n (lit "format")) eqn:Q; [|exact I]. apply str_eqb_eq in Q. rewrite E. subst n. destruct v as [v|].
    + exact (fo_long_equals v).
    + right. reflexivity.
  - destruct (N.eqb_spec c' 0x66) as [->|_]; [|exact I]. destruct r' as [|x y]; [left; reflexivity|].
    destruct (N.eqb_spec x EQUALS) as [->|X]; [exact (fo_short_equals y)|exact (fo_short_joined x y X)].
Qed.
Lemma classify_plain a : plain a -> out_classify a = OPlain.
Proof.
  intros [->|H]; [reflexivity|]. destruct a as [|c r]; [reflexivity|]. cbn [out_classify].
  destruct (N.eqb_spec c DASH) as [->|_]; [destruct (H r eq_refl)|reflexivity].
Qed.
Lemma classify_long v : out_classify (lit "--format=" ++ v) = OWith v.
Proof. change (lit "--format=" ++ v) with (lit "--f" ++ lit "ormat" ++ EQUALS :: v). reflexivity. Qed.
Lemma classify_joined c r : c <> 0x3D%N -> out_classify (lit "-f" ++ c :: r) = OWith (c :: r).
Proof. intros N. cbn. destruct (N.eqb_spec c EQUALS) as [->|_]; [destruct N; reflexivity|reflexivity]. Qed.
Lemma loop_sound n : forall args vs ws, List.length args <= n -> out_loop false vs args = Some ws -> exists us, options_of args us /\ ws = vs ++ us.
Proof.
  induction n as [|n IH]; intros args vs ws L H; (destruct args as [|a r]; cbn [List.length] in L; [|try lia]).
  - injection H as <-. exists []. split; [constructor|rewrite app_nil_r; reflexivity].
  - injection H as <-. exists []. split; [constructor|rewrite app_nil_r; reflexivity].
  - cbn [out_loop] in H. pose proof (out_classify_spec a) as S. destruct (out_classify a) as [v| | | |].
    + destruct (IH r (vs ++ [v]) ws ltac:(lia) H) as (us & O & ->). exists (v :: us). rewrite <- app_assoc. split; [|reflexivity].
      exact (oo_option [a] v r us S O).
    + destruct r as [|b r]; cbn [out_loop] in H; [discriminate H|]. pose proof (out_classify_spec b) as Sb.
      destruct (out_classify b) as [v| | | |]; try discriminate H; [|destruct r; discriminate H].
      cbn [List.length] in L. destruct (IH r (vs ++ [b]) ws ltac:(lia) H) as (us & O & ->). exists (b :: us). rewrite <- app_assoc. split; [|reflexivity].
      apply (oo_option [a; b] b r us); [|exact O]. destruct S as [-> | ->]; constructor; exact Sb.
    + discriminate H.
    + destruct r as [|b r]; [|discriminate H]. injection H as <-. exists []. split; [rewrite S; constructor|rewrite app_nil_r; reflexivity].
    + discriminate H.
Qed.
Lemma loop_complete args us : options_of args us -> forall vs, out_loop false vs args = Some (vs ++ us).
Proof.
  induction 1 as [| |a v r us F O IH]; intros vs; [rewrite app_nil_r; reflexivity..|].
  destruct F as [v P|v|c x N|v P|v]; cbn [app out_loop].
  - change (out_classify (lit "-f")) with OPending. cbn iota. rewrite (classify_plain v P), IH, <- app_assoc. reflexivity.
  - change (out_classify (lit "-f=" ++ v)) with (OWith v). cbn iota. rewrite IH, <- app_assoc. reflexivity.
  - change (45%N :: 102%N :: c :: x) with (lit "-f" ++ c :: x). rewrite (classify_joined c x N), IH, <- app_assoc. reflexivity.
  - change (out_classify (lit "--format")) with OPending. cbn iota. rewrite (classify_plain v P), IH, <- app_assoc. reflexivity.
  - change (out_classify (lit "--format=" ++ v)) with (OWith v). cbn iota. rewrite IH, <- app_assoc. reflexivity.
Qed.
Lemma options_none args : options_of args [] -> args = [] \/ args = [lit "--"].
Proof. intros H. inversion H; auto. Qed.
Theorem C79_accepted_iff : forall args v, parse_format args = Some v <-> format_given args v.
Proof.
  intros args v. unfold parse_format. split.
  - destruct (out_loop false [] args) as [ws|] eqn:E; [|discriminate]. destruct (loop_sound (List.length args) args [] ws (Nat.le_refl _) E) as (us & O & ->).
    cbn [app]. destruct us as [|u [|u' us]]; intros H; [| |discriminate H]; injection H as <-.
    + exists [], args. split; [reflexivity|]. split; [apply options_none, O|left; auto].
    + inversion O as [| |a w r us F R]; subst. exists a, r. split; [reflexivity|]. split; [apply options_none, R|right; exact F].
  - intros (a & e & -> & He & H). assert (R : options_of e []) by (destruct He as [-> | ->]; constructor).
    destruct H as [[-> ->]|F].
    + cbn [app]. rewrite (loop_complete _ _ R). reflexivity.
    + rewrite (loop_complete _ _ (oo_option a v e [] F R)). reflexivity.
Qed.
Print Assumptions C79_accepted_iff.
(** Every text can be given as the format; given separately, exactly the texts that are a hyphen or do not start with one. *)
Theorem C79_any_value : forall v, parse_format [lit "--format=" ++ v] = Some v /\ parse_format [lit "-f=" ++ v] = Some v /\
  (parse_format [lit "--format"; v] = Some v <-> plain v) /\ (parse_format [lit "-f"; v] = Some v <-> plain v).
Proof.
  intros v. split; [apply C79_accepted_iff; exists [lit "--format=" ++ v], []; auto using format_option|].
  split; [apply C79_accepted_iff; exists [lit "-f=" ++ v], []; auto using format_option|].
  assert (Q : forall k, (k = lit "--format" \/ k = lit "-f") -> parse_format [k; v] = Some v -> plain v).
  { intros k K H. pose proof (out_classify_spec v) as S. unfold parse_format in H. cbn [out_loop] in H.
    assert (E : out_classify k = OPending) by (destruct K as [-> | ->]; reflexivity). rewrite E in H.
    destruct (out_classify v); try discriminate H. exact S. }
  split; (split; [apply Q; auto|]); intros P; apply C79_accepted_iff.
  - exists [lit "--format"; v], []; auto using format_option.
  - exists [lit "-f"; v], []; auto using format_option.
Qed.
Print Assumptions C79_any_value.
(** The format is given at most once. *)
Theorem C79_at_most_once : forall a v a' v' e, format_option a v -> format_option a' v' -> parse_format (a ++ a' ++ e) = None.
Proof.
  intros a v a' v' e F F'. destruct (parse_format (a ++ a' ++ e)) as [x|] eqn:H; [|reflexivity]. exfalso. unfold parse_format in H.
  destruct (out_loop false [] (a ++ a' ++ e)) as [ws|] eqn:E; [|discriminate H].
  assert (X : forall a v, format_option a v -> forall vs r, out_loop false vs (a ++ r) = out_loop false (vs ++ [v]) r).
  { clear. intros a v F vs r. destruct F as [v P|v|c x N|v P|v]; cbn [app out_loop].
    - change (out_classify (lit "-f")) with OPending. cbn iota. rewrite (classify_plain v P). reflexivity.
    - change (out_classify (lit "-f=" ++ v)) with (OWith v). reflexivity.
    - change (45%N :: 102%N :: c :: x) with (lit "-f" ++ c :: x). rewrite (classify_joined c x N). reflexivity.
    - change (out_classify (lit "--format")) with OPending. cbn iota. rewrite (classify_plain v P). reflexivity.
    - change (out_classify (lit "--format=" ++ v)) with (OWith v). reflexivity. }
  rewrite (X a v F), (X a' v' F') in E. destruct (loop_sound (List.length e) e _ ws (Nat.le_refl _) E) as (us & _ & ->). discriminate H.
Qed.
Print Assumptions C79_at_most_once.

(** ** The process *)
Theorem C79_prints : forall o args,
  (out_process o args = ONotRun <-> forall v, ~ format_given args v) /\
  (forall b, out_process o args = OBytes b <-> exists v text, format_given args v /\ v <> lit "yaml" /\ output_csv o = Ok text /\ b = encode text) /\
  (forall data, out_process o args = OYamlOf data <-> format_given args (lit "yaml") /\ output_main o (lit "yaml") = OutYaml data) /\
  out_process o args <> OPanicked.
Proof.
  intros o args. destruct (C71_tool_prints o) as (rows & t & _ & _ & _ & _ & E). unfold out_process.
  destruct (parse_format args) as [f|] eqn:P.
  2: { assert (N : forall v, ~ format_given args v) by (intros v H; apply C79_accepted_iff in H; congruence).
       split; [split; [intros _; exact N|reflexivity]|]. split; [|split; [|discriminate]].
       - intros b. split; [discriminate|]. intros (v & text & H & _). destruct (N v H).
       - intros data. split; [discriminate|]. intros (H & _). destruct (N _ H). }
  assert (G : format_given args f) by (apply C79_accepted_iff, P).
  assert (U : forall v, format_given args v -> v = f) by (intros v H; apply C79_accepted_iff in H; congruence).
  unfold format_from_str. destruct (str_eqb f (lit "yaml")) eqn:Q.
  - apply str_eqb_eq in Q. subst f. split; [split; [discriminate|intros N; destruct (N _ G)]|]. split; [|split; [|discriminate]].
    + intros b. split; [discriminate|]. intros (v & text & H & N & _). destruct (N (U v H)).
    + intros data. change (output_main o (lit "yaml")) with (OutYaml (to_serialized_corr (sub o 1) (table_corr (builder_preset (sub o 0) table_new)))).
      generalize (to_serialized_corr (sub o 1) (table_corr (builder_preset (sub o 0) table_new))). intros y.
      split; [intros H; injection H as ->; auto|intros (_ & H); injection H as ->; reflexivity].
  - assert (N : f <> lit "yaml") by (intros ->; discriminate Q). rewrite E. split; [split; [discriminate|intros X; destruct (X _ G)]|].
    split; [|split; [|discriminate]].
    + intros b. split.
      * intros H. injection H as <-. exists f, (t ++ [LF]). auto.
      * intros (v & text & _ & _ & H & ->). apply f_equal. apply f_equal. assert (J : forall a b : str, Ok a = Ok b -> a = b) by congruence. apply J, H.
    + intros data. split; [discriminate|]. intros (H & _). destruct N. symmetry. apply U, H.
Qed.
Print Assumptions C79_prints.
(** Two runs print the same. *)
Theorem C79_deterministic : forall o o' args, out_process o args = out_process o' args.
Proof.
  intros o o' args. unfold out_process. destruct (parse_format args) as [f|]; [|reflexivity].
  destruct (format_from_str f).
  - destruct (C71_tool_prints o) as (rows & t & M & _ & _ & _ & _). pose proof (C59_deterministic o o' (lit "csv")) as D.
    assert (R : to_csv_records (sub o 1) (table_corr (builder_preset (sub o 0) table_new)) = to_csv_records (sub o' 1) (table_corr (builder_preset (sub o' 0) table_new))).
    { change (OutCsv (to_csv_records (sub o 1) (table_corr (builder_preset (sub o 0) table_new))) = OutCsv (to_csv_records (sub o' 1) (table_corr (builder_preset (sub o' 0) table_new)))) in D.
      assert (J : forall a b, OutCsv a = OutCsv b -> a = b) by congruence. apply J, D. }
    unfold output_csv, output_csv_text, to_csv_bytes. rewrite R. reflexivity.
  - pose proof (C59_deterministic o o' (lit "yaml")) as D.
    change (OutYaml (to_serialized_corr (sub o 1) (table_corr (builder_preset (sub o 0) table_new))) = OutYaml (to_serialized_corr (sub o' 1) (table_corr (builder_preset (sub o' 0) table_new)))) in D.
    assert (J : forall a b, OutYaml a = OutYaml b -> a = b) by congruence. apply J in D. rewrite D. reflexivity.
Qed.
Print Assumptions C79_deterministic.
(** What is printed by default, saved as a configuration file, acts like the preset except for the ideographic space. *)
Theorem C79_redirected : forall o b, out_process o [] = OBytes b -> forall o' w p, has_extension p (lit "csv") -> file_at w p (FileBytes b) ->
  exists c, from_config_file o' w p = Ok c /\
    forall s out, result c s out <-> pointwise (fun c t => preset_rel c t /\ c <> 0x3000%N) s out.
Proof.
  intros o b H o' w p X F. apply (C79_prints o []) in H as (v & text & _ & _ & E & ->). exact (C71_tool_reload o text E o' w p X F).
Qed.
Print Assumptions C79_redirected.
(** The expectation that an unknown format is refused is false, and so is the one that the names of YAML in upper case or
    [yml] are understood. *)
Theorem C79_unknown_refused_refuted : exists o b, out_process o [lit "-f"; lit "yml"] = OBytes b /\ out_process o [lit "--format=YAML"] = OBytes b /\
  out_process o [lit "--format=json"] = OBytes b /\ out_process o [] = OBytes b.
Proof.
  exists no_order. destruct (C71_tool_prints no_order) as (rows & t & _ & _ & _ & _ & E). exists (encode (t ++ [LF])).
  assert (Q : forall args v, parse_format args = Some v -> str_eqb v (lit "yaml") = false -> out_process no_order args = OBytes (encode (t ++ [LF]))).
  { intros args v P N. unfold out_process, format_from_str. rewrite P, N, E. reflexivity. }
  split; [|split; [|split]]; eapply Q; reflexivity.
Qed.
Print Assumptions C79_unknown_refused_refuted.
Example C79_case :
  parse_format [lit "-fyaml"; lit "--"] = Some (lit "yaml") /\ parse_format [lit "-f==x"] = Some (lit "=x") /\ parse_format [lit "-f"; lit "-"] = Some (lit "-") /\
  parse_format [lit "--format="] = Some [] /\ parse_format [lit "--format"; lit "-f"] = None /\ parse_format [lit "-f"] = None /\ parse_format [lit "-f"; lit "--"] = None /\
  parse_format [lit "yaml"] = None /\ parse_format [lit "--"; lit "yaml"] = None /\ parse_format [lit "-fa"; lit "-fa"] = None /\ parse_format [lit "--form=yaml"] = None /\
  parse_format [lit "-h"] = None /\ format_given [lit "--format"; lit "yaml"; lit "--"] (lit "yaml").
Proof. repeat (split; [reflexivity|]). apply C79_accepted_iff. reflexivity. Qed.
