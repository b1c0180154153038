(** C100: what the command line tool says when it refuses its configuration. *)
From Coq Require Import String.
From Verif Require Import Base BaseFacts StrOps Corr Table Charset ModifierKind PathModel Yaml File ChanomaModel Configuration Utf8 Cli Csv Process DebugText Refusal
  PathSpec FileSpec ConfigSpec BinSpec ProcessSpec DebugSpec RefusalSpec DebugProps ConfigProps BinProps ProcessProps
  PropsConverter PropsNeo PropsFile PropsConfig PropsProcess PropsErrors PropsDebug.
Local Open Scope string_scope.
Local Open Scope list_scope.

Lemma show_error_printed sh sq d e : error_printed sh sq d e (show_error sh sq d e).
Proof. destruct e; cbn [show_error]; eexists; (split; [constructor|]); (eapply prints_as; [apply p_tuple; first [apply p_word|apply prints_text]|reflexivity]). Qed.
Lemma error_printed_det sh sq d e t t' : error_printed sh sq d e t -> error_printed sh sq d e t' -> t = t'.
Proof. intros (v & V & P) (v' & V' & P'). assert (v' = v) as -> by (destruct V; inversion V'; reflexivity). exact (prints_det sh v t P t' P'). Qed.
(** There is a message exactly if loading the configuration fails with an error, and it is what the grammar prints for that error. *)
Theorem C100_printed : forall sh sq d o w t, refusal sh sq d o w = Some t <-> exists e, load_rc o w = Err e /\ error_printed sh sq d e t.
Proof.
  intros sh sq d o w t. unfold refusal. rewrite (load_rc_order (sub o 0) o). split.
  - destruct (load_rc o w) as [c|e|]; try discriminate. intros [= <-]. exists e. split; [reflexivity|apply show_error_printed].
  - intros (e & -> & P). f_equal. exact (error_printed_det _ _ _ _ _ _ (show_error_printed sh sq d e) P).
Qed.
Print Assumptions C100_printed.
(** Then every run ends with a panic, whatever the options and the input. *)
Theorem C100_ends : forall sh sq d o w t args op stdin, refusal sh sq d o w = Some t -> accepted args op -> process o w args stdin = Panicked.
Proof.
  intros sh sq d o w t args op stdin R A. apply C100_printed in R as (e & E & _). unfold process. rewrite (proj2 (parse_args_iff args op) A), cli_fail; [reflexivity|]. rewrite E. discriminate.
Qed.
Print Assumptions C100_ends.
(** The message does not depend on the iteration order of hash containers. *)
Theorem C100_deterministic : forall sh sq d o o' w, refusal sh sq d o w = refusal sh sq d o' w.
Proof. intros. unfold refusal. rewrite (load_rc_order (sub o 0) (sub o' 0)). reflexivity. Qed.
Print Assumptions C100_deterministic.
(** The message determines the error, with the path or text in it, even if library errors print anything. *)
Theorem C100_read : forall sh sq d d' e e' t, error_printed sh sq d e t -> error_printed sh sq d' e' t -> e = e'.
Proof.
  intros sh sq d d' e e' t P P'. pose proof (error_printed_det _ _ _ _ _ _ P (show_error_printed sh sq d e)) as E. pose proof (error_printed_det _ _ _ _ _ _ P' (show_error_printed sh sq d' e')) as E'.
  rewrite E in E'. clear P P' E t.
  destruct e, e'; cbn [show_error] in E'; try reflexivity; try discriminate E'; apply app_same in E'; apply show_text_delim in E' as [-> _]; reflexivity.
Qed.
Print Assumptions C100_read.
(** A message about one of the crate's own errors is on one line. *)
Theorem C100_one_line : forall sh sq d e t c, error_printed sh sq d e t -> (forall x, In x d -> (32 <= x <= 126)%N) -> In c t ->
  (32 <= c <= 126)%N \/ (sh c = true /\ ~ In c [0; 9; 13; 10]%N).
Proof.
  intros sh sq d e t c P D I. rewrite (error_printed_det _ _ _ _ _ _ P (show_error_printed sh sq d e)) in I.
  assert (F : forallb (fine sh) (show_error sh sq d e) = true).
  { assert (Fd : forallb (fine sh) d = true) by (apply forallb_forall; intros x X; unfold fine; destruct (D x X) as [L1 L2]; apply N.leb_le in L1, L2; rewrite L1, L2; reflexivity).
    destruct e; cbn [show_error]; rewrite !forallb_app, ?fine_text, ?Fd; reflexivity. }
  rewrite forallb_forall in F. specialize (F c I). unfold fine in F. apply orb_true_iff in F as [F|F]; apply andb_true_iff in F as [F1 F2].
  - left. apply N.leb_le in F1, F2. lia.
  - right. split; [exact F1|]. intros J. apply negb_true_iff in F2. rewrite (proj2 (existsb_exists (N.eqb c) _)) in F2; [discriminate|]. exists c. split; [exact J|apply N.eqb_refl].
Qed.
Print Assumptions C100_one_line.
(** Only a refused [CHANOMARC] is named. *)
Theorem C100_names_chanomarc : forall sh sq d o w t p, (forall s, w_env w = EnvUnicode s -> unicode s) ->
  refusal sh sq d o w = Some t -> error_printed sh sq d (RcFileLoadError p) t ->
  w_env w = EnvUnicode p /\ (w_is_file w p = false \/ exists x, has_extension p x /\ x <> lit "csv" /\ x <> lit "yaml").
Proof.
  intros sh sq d o w t p U R P. apply C100_printed in R as (e & E & P'). pose proof (C100_read _ _ _ _ _ _ _ P' P) as ->.
  destruct (C67_load_rc_errors o w _ U E) as [(s & Q & H)|[[] _]]. injection Q as ->. exact H.
Qed.
Print Assumptions C100_names_chanomarc.
Theorem C100_missing : forall sh sq d o w s, w_env w = EnvUnicode s -> unicode s -> w_is_file w s = false ->
  exists t, refusal sh sq d o w = Some t /\ error_printed sh sq d (RcFileLoadError s) t.
Proof.
  intros sh sq d o w s E U F. destruct (C45_lemma o w s E U) as (C1 & _). eexists. split; [apply C100_printed; exists (RcFileLoadError s); split; [apply C1, F|]|]; apply show_error_printed.
Qed.
Print Assumptions C100_missing.
(** The expectation that the message tells which configuration file is wrong is false. *)
Definition wrong_world (file : string) : world :=
  World (fun p => str_eqb p (lit file)) (fun _ => None) (fun _ => Some (Some (ex_modifiers [(ystr "trim", ystr "x")]))) (fun p => Some p) EnvAbsent (Some (lit "/h")) (Some (lit "/d")).
Theorem C100_names_file_refuted : exists w w' p p', p <> p' /\ (forall q, w_is_file w q = true <-> q = p) /\ (forall q, w_is_file w' q = true <-> q = p') /\
  forall sh sq d o o', exists t, refusal sh sq d o w = Some t /\ refusal sh sq d o' w' = Some t.
Proof.
  exists (wrong_world "/h/chanomarc.yaml"), (wrong_world "/d/chanomarc.yaml"), (lit "/h/chanomarc.yaml"), (lit "/d/chanomarc.yaml"). split; [discriminate|].
  split; [intros q; apply str_eqb_eq|]. split; [intros q; apply str_eqb_eq|].
  intros sh sq d o o'. exists (show_error sh sq d (ModifierKindParseError (lit "Cannot specify a value."))).
  rewrite (C100_deterministic sh sq d o no_order), (C100_deterministic sh sq d o' no_order). unfold refusal.
  assert (H : forall f, In f ["/h/chanomarc.yaml"; "/d/chanomarc.yaml"] -> load_rc (sub no_order 0) (wrong_world f) = Err (ModifierKindParseError (lit "Cannot specify a value."))) by (intros f [<-|[<-|[]]]; vm_compute; reflexivity).
  rewrite !H by (cbn; auto). auto.
Qed.
Print Assumptions C100_names_file_refuted.
Example C100_case :
  refusal ascii_shown false [] no_order (rc_world "/missing.csv") = Some (lit "RcFileLoadError(""/missing.csv"")") /\
  show_error ascii_shown false [] (RcFileLoadError (lit "/a""b" ++ [0x3042; 10]%N)) = lit "RcFileLoadError(""/a\""b\u{3042}\n"")" /\
  refusal ascii_shown false [] no_order (rc_world "/rc.csv") = None /\
  refusal ascii_shown false [] no_order (wrong_world "/d/chanomarc.yaml") = Some (lit "ModifierKindParseError(""Cannot specify a value."")").
Proof. split; [vm_compute; reflexivity|]. split; [vm_compute; reflexivity|]. split; vm_compute; reflexivity. Qed.
