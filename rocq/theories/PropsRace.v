(** Property C81: configuration loading while files and environment change. *)
From Coq Require Import String.
From Verif Require Import Base BaseFacts StrOps Corr Table Charset Converter ModifierKind PathModel Yaml File ChanomaModel Configuration Race
  CharSpec Spec CorrProps TableFacts PropsConverter PropsPipeline FileSpec PathSpec ConfigSpec RaceSpec FileProps PathProps YamlProps ConfigProps BinProps PropsFile PropsConfig.
Local Open Scope string_scope.
Local Open Scope list_scope.

(** ** Lemmas *)
Lemma and_then_ok {A B} (x : timed A) (k : A -> timed B) ws t b t' :
  and_then x k ws t = (Ok b, t') <-> exists a t1, x ws t = (Ok a, t1) /\ k a ws t1 = (Ok b, t').
Proof.
  unfold and_then. destruct (x ws t) as [[a|e|] t1].
  - split; [intros H; exists a, t1; auto|]. intros (a' & t1' & E & H). injection E as <- <-. exact H.
  - split; [discriminate|]. intros (a' & t1' & E & _). discriminate.
  - split; [discriminate|]. intros (a' & t1' & E & _). discriminate.
Qed.
Lemma and_then_eq {A B} (x : timed A) (k : A -> timed B) ws t a t1 : x ws t = (Ok a, t1) -> and_then x k ws t = k a ws t1.
Proof. intros H. unfold and_then. rewrite H. reflexivity. Qed.
Lemma items_csv w p items : file_items w p Csv items <->
  exists recs rows, w_csv w p = Some recs /\ hd_error recs <> Some CsvIoError /\ tl recs = map CsvFields rows /\ rows_items rows items.
Proof. reflexivity. Qed.
Lemma timed_csv o p ws t : has_extension p (lit "csv") -> from_config_file_timed o p ws t = (from_config_file o (ws t) p, S t).
Proof.
  intros H. apply ext_csv_iff in H. unfold from_config_file_timed, from_config_file, configuration_from_path, load_file_with_ext. rewrite H.
  unfold and_then, pure, load_items_timed, look. cbn [bind load_modifiers load_modifiers_timed].
  destruct (load_items_to_character_converter (ws t) p Csv); reflexivity.
Qed.
Lemma timed_yaml o p ws t : is_yaml p -> from_config_file_timed o p ws t =
  match load_items_to_character_converter (ws t) p Yaml with
  | Ok cc => (ms <- modifiers_from_yaml_path o (ws (S t)) p ;; Ok (ms ++ [MConv cc]), S (S t))
  | Err e => (Err e, S t)
  | Panic => (Panic, S t)
  end.
Proof.
  intros H. apply ext_yaml_iff in H. unfold from_config_file_timed. rewrite H. unfold and_then, pure, load_items_timed, look. cbn [load_modifiers_timed].
  destruct (load_items_to_character_converter (ws t) p Yaml); [|reflexivity..]. unfold look. destruct (modifiers_from_yaml_path o (ws (S t)) p); reflexivity.
Qed.
Lemma timed_ext o p ws t c t' : from_config_file_timed o p ws t = (Ok c, t') -> has_extension p (lit "csv") \/ is_yaml p.
Proof.
  intros H. apply and_then_ok in H as (ext & t1 & E & _). unfold pure in E. injection E as E _. apply ext_ok_cases in E as [[_ E]|[_ E]]; auto.
Qed.
Lemma file_at_ok o p ws t c t' : from_config_file_timed o p ws t = (Ok c, t') ->
  Forall constructible c /\ exists e n, file_effect_at (ws t) (ws (S t)) p e n /\ t' = t + n /\ forall s out, result c s out <-> e s out.
Proof.
  intros H. destruct (timed_ext _ _ _ _ _ _ H) as [X|X].
  - rewrite (timed_csv o p ws t X) in H. injection H as H <-. pose proof H as H'. apply C44_ok in H' as (Hc & _).
    split; [exact Hc|]. apply (C44_csv o (ws t) p c X) in H as (items & cc & (recs & rows & H1 & H2 & H3 & H4) & H5 & -> & ->).
    exists (pointwise (last_match items)), 1. split; [eapply fa_csv; eassumption|]. split; [lia|].
    apply (proj2 (realises_conv _ _ (conv_collect_rel items H5))).
  - rewrite (timed_yaml o p ws t X) in H. destruct (load_items_to_character_converter (ws t) p Yaml) as [cc| |] eqn:E; [|discriminate..].
    injection H as H <-. apply bind_ok in H as (ms & H & H'). injection H' as <-.
    apply load_conv_iff in E as (items & (data1 & H1 & H2) & H5 & ->).
    assert (exists data2, w_yaml (ws (S t)) p = Some (Some data2)) as (data2 & D2).
    { unfold modifiers_from_yaml_path, read_yaml in H. destruct (w_yaml (ws (S t)) p) as [[d|]|]; [eauto|discriminate..]. }
    rewrite (yaml_modifiers_iff o _ p data2 D2) in H. apply modifiers_ok_inv in H as (effs & H6 & H7).
    destruct (realises_conv _ _ (conv_collect_rel items H5)) as [Hc Hr].
    split; [apply Forall_app; split; [eapply realises_constructible, H7|constructor; [exact Hc|constructor]]|].
    eexists. exists 2. split; [eapply fa_yaml; eassumption|]. split; [lia|]. intros s out. rewrite result_app. split; intros (mid & A & B); exists mid.
    + split; [apply (result_realises _ _ H7), A|apply Hr, B].
    + split; [apply (result_realises _ _ H7), A|apply Hr, B].
Qed.
Lemma file_at_if o p ws t e n : file_effect_at (ws t) (ws (S t)) p e n -> exists c, from_config_file_timed o p ws t = (Ok c, t + n).
Proof.
  intros H. destruct H as [recs rows items X H1 H2 H3 H4 H5|data1 data2 items effs X H1 H2 H3 H4 H5].
  - rewrite (timed_csv o p ws t X). destruct (C44_if o (ws t) p (pointwise (last_match items))) as (c & E); [eapply fe_csv; eassumption|].
    exists c. rewrite E. f_equal. lia.
  - rewrite (timed_yaml o p ws t X). assert (E : load_items_to_character_converter (ws t) p Yaml = Ok (hm_collect N.eqb (pairs_of items))).
    { apply load_conv_iff. exists items. split; [exists data1; auto|]. auto. }
    rewrite E, (yaml_modifiers_iff o _ p data2 H4). destruct (modifiers_ok o data2 effs H5) as (ms & E'). rewrite E'. cbn [bind].
    eexists. f_equal. lia.
Qed.
Lemma filter_at ps : forall ws t, exists l t', filter_timed ps ws t = (Ok l, t') /\ seen ws t ps l t'.
Proof.
  induction ps as [|p ps IH]; intros ws t; cbn [filter_timed]; [eexists; eexists; split; [reflexivity|constructor]|].
  destruct (IH ws (S t)) as (l & t' & E & S). exists (if w_is_file (ws t) p then p :: l else l), t'. split.
  - unfold and_then at 1, look. cbn. rewrite (and_then_eq _ _ _ _ _ _ E). reflexivity.
  - destruct (w_is_file (ws t) p) eqn:F; [apply seen_yes|apply seen_no]; assumption.
Qed.
Lemma seen_unique ws t ps l t' : seen ws t ps l t' -> forall l2 t2, seen ws t ps l2 t2 -> l2 = l /\ t2 = t'.
Proof.
  induction 1 as [t|t p ps l t' F _ IH|t p ps l t' F _ IH]; intros l2 t2 S; inversion S; subst; try congruence; auto.
  - destruct (IH _ _ H5) as [-> ->]. auto.
Qed.
Lemma files_at_ok ps : forall o i ws t cs t', load_files_timed o i ps ws t = (Ok cs, t') ->
  Forall constructible (concat cs) /\ exists effs, read_in_turn ws t ps effs t' /\ forall s out, result (concat cs) s out <-> in_sequence effs s out.
Proof.
  induction ps as [|p ps IH]; intros o i ws t cs t' H; cbn [load_files_timed] in H.
  - injection H as <- <-. split; [constructor|]. exists []. split; [constructor|]. intros s out. apply result_nil.
  - apply and_then_ok in H as (c & t1 & E & H). apply and_then_ok in H as (rest & t2 & E2 & H). injection H as <- <-.
    destruct (file_at_ok _ _ _ _ _ _ E) as (Hc & e & n & He & -> & Hr). destruct (IH _ _ _ _ _ _ E2) as (Hcs & effs & F & R).
    cbn [concat]. split; [apply Forall_app; auto|]. exists (e :: effs). split; [econstructor; eassumption|]. intros s out. rewrite result_app. cbn [in_sequence].
    split; intros (mid & A & B); exists mid; (split; [apply Hr, A|apply R, B]).
Qed.
Lemma files_at_if ws t ps effs t' : read_in_turn ws t ps effs t' -> forall o i, exists cs, load_files_timed o i ps ws t = (Ok cs, t').
Proof.
  induction 1 as [t|t p l e n effs t' He _ IH]; intros o i; cbn [load_files_timed]; [eexists; reflexivity|].
  destruct (file_at_if (sub o i) p ws t e n He) as (c & E). destruct (IH o (S i)) as (cs & E2). exists (c :: cs).
  rewrite (and_then_eq _ _ _ _ _ _ E), (and_then_eq _ _ _ _ _ _ E2). reflexivity.
Qed.
Lemma timed_dirs home cwd : flat_map auto_load_paths_from_dir
   ((match home with Some home => [push home (lit ".config/chanoma"); home] | None => [] end) ++
    (match cwd with Some d => [d] | None => [] end)) = candidates home cwd.
Proof.
  pose proof (dirs_candidates (World (fun _ => false) (fun _ => None) (fun _ => None) (fun _ => None) EnvAbsent home cwd)) as H. exact H.
Qed.
Lemma paths_unset ws t l t' : chanomarc_unset (ws t) -> seen ws (t + 3) (candidates (w_home (ws (t + 1))) (w_cwd (ws (t + 2)))) l t' ->
  file_paths_timed ws t = (Ok l, t').
Proof.
  intros U HS. unfold file_paths_timed. unfold and_then at 1, look at 1.
  assert (E : file_path_from_env (ws t) = None) by (unfold file_path_from_env; destruct (w_env (ws t)) eqn:E; [reflexivity..|destruct (U s E)]).
  rewrite E. unfold and_then at 1, look at 1. unfold and_then at 1, look at 1. rewrite timed_dirs.
  replace (S t) with (t + 1) by lia. replace (S (t + 1)) with (t + 2) by lia. replace (S (t + 2)) with (t + 3) by lia.
  destruct (filter_at (candidates (w_home (ws (t + 1))) (w_cwd (ws (t + 2)))) ws (t + 3)) as (l' & t2 & F & HS').
  destruct (seen_unique _ _ _ _ _ HS _ _ HS') as [-> ->]. exact F.
Qed.
Lemma paths_unset_ex ws t : chanomarc_unset (ws t) -> exists l t',
  seen ws (t + 3) (candidates (w_home (ws (t + 1))) (w_cwd (ws (t + 2)))) l t' /\ file_paths_timed ws t = (Ok l, t').
Proof.
  intros U. destruct (filter_at (candidates (w_home (ws (t + 1))) (w_cwd (ws (t + 2)))) ws (t + 3)) as (l & t' & _ & S).
  exists l, t'. split; [exact S|apply paths_unset; assumption].
Qed.
Lemma load_paths o ws t l t1 : file_paths_timed ws t = (Ok l, t1) ->
  load_rc_timed o ws t = and_then (load_files_timed o 0 l) (fun cs => pure (Ok (concat cs))) ws t1.
Proof. intros E. unfold load_rc_timed. rewrite (and_then_eq _ _ _ _ _ _ E). destruct l; reflexivity. Qed.
Lemma valid_path_at w s : unicode s ->
  (valid_file_path w s = Ok [s] <-> w_is_file w s = true /\ (has_extension s (lit "csv") \/ has_extension s (lit "yaml"))) /\
  forall l, valid_file_path w s = Ok l -> l = [s].
Proof.
  intros U. unfold valid_file_path. destruct (w_is_file w s); cbn [negb].
  2: { split; [split; [discriminate|intros [C _]; discriminate]|discriminate]. }
  destruct (extension s) as [e|] eqn:X; cbn [unwrap bind].
  2: { split; [|discriminate]. split; [discriminate|]. intros (_ & [C|C]); apply extension_iff in C; congruence. }
  apply extension_iff in X. assert (T : to_str e = Some e).
  { pose proof X as (stem & _ & _ & dir & q & -> & _). apply to_str_iff. split; [|reflexivity].
    unfold unicode in *. rewrite Forall_app in U. destruct U as [_ U]. rewrite Forall_app in U. destruct U as [U _].
    rewrite Forall_app in U. destruct U as [_ U]. rewrite Forall_app in U. apply U. }
  rewrite T. cbn [unwrap bind all_extensions forallb ext_to_string].
  destruct (str_eqb_spec (lit "csv") e) as [<-|N1]; cbn [negb andb]; [split; [split; auto|intros l E; congruence]|].
  destruct (str_eqb_spec (lit "yaml") e) as [<-|N2]; cbn [negb andb]; [split; [split; auto|intros l E; congruence]|].
  split; [|discriminate]. split; [discriminate|]. intros (_ & [C|C]); apply extension_iff in C; apply extension_iff in X; congruence.
Qed.

(** ** C81 *)
(** A file: a CSV file is read once, a YAML file twice, first its items, then its modifiers. *)
Theorem C81_file : forall o p ws t c t', from_config_file_timed o p ws t = (Ok c, t') ->
  Forall constructible c /\ exists e n, file_effect_at (ws t) (ws (S t)) p e n /\ t' = t + n /\ forall s out, result c s out <-> e s out.
Proof. exact file_at_ok. Qed.
Print Assumptions C81_file.
Theorem C81_file_if : forall o p ws t e n, file_effect_at (ws t) (ws (S t)) p e n -> exists c, from_config_file_timed o p ws t = (Ok c, t + n).
Proof. exact file_at_if. Qed.
Print Assumptions C81_file_if.
(** The search. *)
Theorem C81_search : forall o ws t c t', chanomarc_unset (ws t) -> load_rc_timed o ws t = (Ok c, t') ->
  Forall constructible c /\ exists l t1 effs,
    seen ws (t + 3) (candidates (w_home (ws (t + 1))) (w_cwd (ws (t + 2)))) l t1 /\ read_in_turn ws t1 l effs t' /\
    forall s out, result c s out <-> in_sequence effs s out.
Proof.
  intros o ws t c t' U H. destruct (paths_unset_ex ws t U) as (l & t1 & S & E). rewrite (load_paths o ws t l t1 E) in H.
  apply and_then_ok in H as (cs & t2 & H & H'). injection H' as <- <-. destruct (files_at_ok _ _ _ _ _ _ _ H) as (Hc & effs & R & Q).
  split; [exact Hc|]. exists l, t1, effs. auto.
Qed.
Print Assumptions C81_search.
Theorem C81_search_if : forall o ws t l t1 effs t', chanomarc_unset (ws t) ->
  seen ws (t + 3) (candidates (w_home (ws (t + 1))) (w_cwd (ws (t + 2)))) l t1 -> read_in_turn ws t1 l effs t' ->
  exists c, load_rc_timed o ws t = (Ok c, t').
Proof.
  intros o ws t l t1 effs t' U HS R. rewrite (load_paths o ws t l t1 (paths_unset ws t l t1 U HS)).
  destruct (files_at_if _ _ _ _ _ R o 0) as (cs & E). exists (concat cs). rewrite (and_then_eq _ _ _ _ _ _ E). reflexivity.
Qed.
Print Assumptions C81_search_if.
(** CHANOMARC. *)
Theorem C81_env_iff : forall o ws t s, w_env (ws t) = EnvUnicode s -> unicode s -> forall t',
  (exists c, load_rc_timed o ws t = (Ok c, t')) <->
  w_is_file (ws (t + 1)) s = true /\ (has_extension s (lit "csv") \/ has_extension s (lit "yaml")) /\
  exists e n, file_effect_at (ws (t + 2)) (ws (t + 3)) s e n /\ t' = t + 2 + n.
Proof.
  intros o ws t s E U t'. assert (P : file_paths_timed ws t = (valid_file_path (ws (t + 1)) s, t + 2)).
  { unfold file_paths_timed. unfold and_then, look at 1. unfold file_path_from_env. rewrite E. unfold look.
    replace (S (S t)) with (t + 2) by lia. replace (S t) with (t + 1) by lia. reflexivity. }
  destruct (valid_path_at (ws (t + 1)) s U) as [V1 V2]. split.
  - intros (c & H). destruct (valid_file_path (ws (t + 1)) s) as [l| |] eqn:V.
    + rewrite (V2 l eq_refl) in *. destruct (proj1 V1 eq_refl) as [F X]. split; [exact F|]. split; [exact X|].
      rewrite (load_paths o ws t _ _ P) in H. apply and_then_ok in H as (cs & t2 & H & H'). injection H' as <- <-.
      cbn [load_files_timed] in H. apply and_then_ok in H as (c1 & t3 & H & H'). cbn in H'. injection H' as <- <-.
      destruct (file_at_ok _ _ _ _ _ _ H) as (_ & e & n & He & -> & _). exists e, n.
      replace (t + 3) with (S (t + 2)) by lia. auto.
    + unfold load_rc_timed, and_then in H. rewrite P in H. discriminate.
    + unfold load_rc_timed, and_then in H. rewrite P in H. discriminate.
  - intros (F & X & e & n & He & ->). rewrite (proj2 V1 (conj F X)) in P. rewrite (load_paths o ws t _ _ P).
    replace (t + 3) with (S (t + 2)) in He by lia. destruct (file_at_if (sub o 0) s ws (t + 2) e n He) as (c & H).
    eexists. cbn [load_files_timed]. unfold and_then. rewrite H. reflexivity.
Qed.
Print Assumptions C81_env_iff.
Theorem C81_env : forall o ws t s c t', w_env (ws t) = EnvUnicode s -> load_rc_timed o ws t = (Ok c, t') ->
  w_is_file (ws (t + 1)) s = true /\ Forall constructible c /\
  exists e n, file_effect_at (ws (t + 2)) (ws (t + 3)) s e n /\ t' = t + 2 + n /\ forall x out, result c x out <-> e x out.
Proof.
  intros o ws t s c t' E H. assert (P : file_paths_timed ws t = (valid_file_path (ws (t + 1)) s, t + 2)).
  { unfold file_paths_timed. unfold and_then, look at 1. unfold file_path_from_env. rewrite E. unfold look.
    replace (S (S t)) with (t + 2) by lia. replace (S t) with (t + 1) by lia. reflexivity. }
  assert (V : valid_file_path (ws (t + 1)) s = Ok [s] /\ w_is_file (ws (t + 1)) s = true).
  { unfold load_rc_timed in H. apply and_then_ok in H as (l & t1 & H & _). rewrite P in H. injection H as H _. revert H. unfold valid_file_path.
    destruct (w_is_file (ws (t + 1)) s); cbn [negb]; [|discriminate]. destruct (unwrap (extension s)) as [x| |]; cbn [bind]; [|discriminate..].
    destruct (unwrap (to_str x)) as [y| |]; cbn [bind]; [|discriminate..]. destruct (forallb _ _); [discriminate|]. auto. }
  destruct V as [V F]. rewrite V in P. rewrite (load_paths o ws t _ _ P) in H. apply and_then_ok in H as (cs & t2 & H & H'). injection H' as <- <-.
  cbn [load_files_timed] in H. apply and_then_ok in H as (c1 & t3 & H & H'). cbn in H'. injection H' as <- <-.
  destruct (file_at_ok _ _ _ _ _ _ H) as (Hc & e & n & He & -> & Hr). split; [exact F|]. cbn [concat]. rewrite app_nil_r. split; [exact Hc|].
  exists e, n. replace (t + 3) with (S (t + 2)) by lia. auto.
Qed.
Print Assumptions C81_env.

(** Nothing changes: the loading of the other properties. *)
Lemma items_same w w' p ext : w_csv w p = w_csv w' p -> w_yaml w p = w_yaml w' p ->
  load_items_to_character_converter w' p ext = load_items_to_character_converter w p ext.
Proof.
  intros C Y. unfold load_items_to_character_converter, table_from_csv_path, table_from_yaml_path, read_yaml. rewrite <- C, <- Y. reflexivity.
Qed.
Lemma mods_same o w w' p : w_yaml w p = w_yaml w' p -> modifiers_from_yaml_path o w' p = modifiers_from_yaml_path o w p.
Proof. intros Y. unfold modifiers_from_yaml_path, read_yaml. rewrite <- Y. reflexivity. Qed.
Lemma same_file o (P : path -> Prop) w p ws : P p -> (forall i, alike_for P w (ws i)) ->
  forall t, fst (from_config_file_timed o p ws t) = load_file_with_ext o w p.
Proof.
  intros HP A t. destruct (A t) as (_ & _ & _ & A1). destruct (A (S t)) as (_ & _ & _ & A2).
  destruct (A1 p HP) as (_ & C1 & Y1). destruct (A2 p HP) as (_ & C2 & Y2).
  unfold from_config_file_timed, load_file_with_ext. unfold and_then at 1, pure at 1.
  destruct (ext_from_path p) as [ext| |]; cbn [bind]; [|reflexivity..].
  unfold and_then at 1, load_items_timed, look at 1. rewrite (items_same w (ws t) p ext C1 Y1).
  destruct (load_items_to_character_converter w p ext) as [cc| |]; cbn [bind]; [|reflexivity..].
  destruct ext; cbn [load_modifiers load_modifiers_timed]; [reflexivity|].
  unfold and_then, look, pure. rewrite (mods_same o w (ws (S t)) p Y2). destruct (modifiers_from_yaml_path o w p); reflexivity.
Qed.
Lemma same_files o (P : path -> Prop) w ws : (forall i, alike_for P w (ws i)) -> forall l i t, (forall p, In p l -> P p) ->
  fst (load_files_timed o i l ws t) = load_files o w i l.
Proof.
  intros A. induction l as [|p l IH]; intros i t H; cbn [load_files_timed load_files]; [reflexivity|].
  pose proof (same_file (sub o i) P w p ws (H p (or_introl eq_refl)) A t) as E. unfold and_then at 1.
  destruct (from_config_file_timed (sub o i) p ws t) as [r t1]. cbn [fst] in E. rewrite <- E. destruct r as [ms| |]; cbn [bind]; [|reflexivity..].
  specialize (IH (S i) t1 (fun q Hq => H q (or_intror Hq))). unfold and_then. destruct (load_files_timed o (S i) l ws t1) as [r t2].
  cbn [fst] in IH. rewrite <- IH. destruct r; reflexivity.
Qed.
Lemma same_seen (P : path -> Prop) w ws : (forall i, alike_for P w (ws i)) -> forall l t, (forall p, In p l -> P p) ->
  fst (filter_timed l ws t) = Ok (filter (w_is_file w) l).
Proof.
  intros A. induction l as [|p l IH]; intros t H; cbn [filter_timed filter]; [reflexivity|].
  destruct (A t) as (_ & _ & _ & A1). destruct (A1 p (H p (or_introl eq_refl))) as (F & _). unfold and_then at 1, look.
  specialize (IH (S t) (fun q Hq => H q (or_intror Hq))). unfold and_then, pure. destruct (filter_timed l ws (S t)) as [r t2]. cbn [fst] in IH. rewrite IH.
  cbn [fst]. rewrite <- F. reflexivity.
Qed.
Lemma same_rest o (P : path -> Prop) w ws l t : (forall i, alike_for P w (ws i)) -> (forall p, In p l -> P p) -> file_paths w = Ok l ->
  fst (file_paths_timed ws t) = Ok l -> fst (load_rc_timed o ws t) = load_rc o w.
Proof.
  intros A H E E'. destruct (file_paths_timed ws t) as [r t1] eqn:F. cbn [fst] in E'. subst r. rewrite (load_paths o ws t l t1 F).
  unfold load_rc, configuration_load. rewrite E. cbn [bind]. pose proof (same_files o P w ws A l 0 t1 H) as G. unfold and_then, pure.
  destruct (load_files_timed o 0 l ws t1) as [r t2]. cbn [fst] in G. destruct l as [|p l].
  - cbn [load_files] in G. subst r. reflexivity.
  - rewrite <- G. destruct r; reflexivity.
Qed.
Theorem C81_unchanged : forall o w ws t,
  (forall i, alike_for (fun p => w_env w = EnvUnicode p \/ In p (candidates (w_home w) (w_cwd w))) w (ws i)) ->
  fst (load_rc_timed o ws t) = load_rc o w.
Proof.
  intros o w ws t A. pose proof (A t) as (E0 & _). pose proof (A (S t)) as (_ & H1 & _ & F1). pose proof (A (S (S t))) as (_ & _ & D2 & _).
  assert (EP : file_path_from_env (ws t) = file_path_from_env w) by (unfold file_path_from_env; rewrite <- E0; reflexivity).
  destruct (file_path_from_env w) as [s|] eqn:E.
  - assert (W : w_env w = EnvUnicode s) by (unfold file_path_from_env in E; destruct (w_env w); congruence).
    assert (V : valid_file_path (ws (S t)) s = valid_file_path w s).
    { unfold valid_file_path. destruct (F1 s (or_introl W)) as (-> & _). reflexivity. }
    assert (P : file_paths_timed ws t = (valid_file_path w s, S (S t))).
    { unfold file_paths_timed. unfold and_then, look at 1. rewrite EP. unfold look. rewrite V. reflexivity. }
    assert (Q : file_paths w = valid_file_path w s) by (unfold file_paths; rewrite E; reflexivity).
    destruct (valid_file_path w s) as [l| |] eqn:L.
    + eapply same_rest; [exact A| |exact Q|rewrite P; reflexivity]. intros p Hp. left. rewrite W. f_equal.
      unfold valid_file_path in L. destruct (negb _); [discriminate|]. destruct (unwrap (extension s)) as [x| |]; cbn [bind] in L; [|discriminate..].
      destruct (unwrap (to_str x)) as [y| |]; cbn [bind] in L; [|discriminate..]. destruct (forallb _ _); [discriminate|]. injection L as <-.
      destruct Hp as [Hp|[]]. exact Hp.
    + unfold load_rc_timed, load_rc, configuration_load, and_then. rewrite P, Q. reflexivity.
    + unfold load_rc_timed, load_rc, configuration_load, and_then. rewrite P, Q. reflexivity.
  - assert (P : file_paths_timed ws t = filter_timed (candidates (w_home w) (w_cwd w)) ws (S (S (S t)))).
    { unfold file_paths_timed. unfold and_then at 1, look at 1. rewrite EP. unfold and_then at 1, look at 1. unfold and_then at 1, look at 1.
      rewrite timed_dirs, H1, D2. reflexivity. }
    assert (Q : file_paths w = Ok (filter (w_is_file w) (candidates (w_home w) (w_cwd w)))).
    { unfold file_paths. rewrite E. unfold exists_file_paths, auto_load_dirs. rewrite timed_dirs. reflexivity. }
    eapply same_rest; [exact A| |exact Q|].
    + intros p Hp. right. apply filter_In in Hp as [Hp _]. exact Hp.
    + rewrite P. apply (same_seen _ w ws A). auto.
Qed.
Print Assumptions C81_unchanged.

(** A file that disappears before a read is an error, also when it was found a moment ago. *)
Theorem C81_vanished : forall o p ws t,
  (has_extension p (lit "csv") -> w_csv (ws t) p = None -> from_config_file_timed o p ws t = (Err CsvFileLoadError, S t)) /\
  (is_yaml p -> w_yaml (ws t) p = None -> from_config_file_timed o p ws t = (Err IoError, S t)) /\
  (is_yaml p -> forall data items, w_yaml (ws t) p = Some (Some data) -> items_described data items -> no_empty_string items ->
     w_yaml (ws (S t)) p = None -> from_config_file_timed o p ws t = (Err IoError, S (S t))).
Proof.
  intros o p ws t. repeat split.
  - intros X H. rewrite (timed_csv o p ws t X). f_equal. apply ext_csv_iff in X. unfold from_config_file, configuration_from_path, load_file_with_ext.
    rewrite X. cbn [bind]. unfold load_items_to_character_converter, table_from_csv_path. rewrite H. reflexivity.
  - intros X H. rewrite (timed_yaml o p ws t X). unfold load_items_to_character_converter, table_from_yaml_path, read_yaml. rewrite H. reflexivity.
  - intros X data items H1 H2 H3 H4. rewrite (timed_yaml o p ws t X).
    assert (E : load_items_to_character_converter (ws t) p Yaml = Ok (hm_collect N.eqb (pairs_of items))).
    { apply load_conv_iff. exists items. split; [exists data; auto|]. auto. }
    rewrite E. unfold modifiers_from_yaml_path, read_yaml. rewrite H4. reflexivity.
Qed.
Print Assumptions C81_vanished.
Lemma files_prefix o ws p l2 r t3 : forall l1 i t effs t2, read_in_turn ws t l1 effs t2 ->
  from_config_file_timed (sub o (i + List.length l1)) p ws t2 = (r, t3) -> (forall c, r <> Ok c) ->
  load_files_timed o i (l1 ++ p :: l2) ws t = (match r with Err e => Err e | _ => Panic end, t3).
Proof.
  induction l1 as [|q l1 IH]; intros i t effs t2 R E N; inversion R as [|? ? ? e n effs' ? He Hl]; subst; cbn [app load_files_timed].
  - cbn [List.length] in E. rewrite Nat.add_0_r in E. unfold and_then. rewrite E. destruct r as [c| |]; [destruct (N c eq_refl)|reflexivity..].
  - destruct (file_at_if (sub o i) q ws t e n He) as (c & Ec). rewrite (and_then_eq _ _ _ _ _ _ Ec).
    cbn [List.length] in E. replace (i + S (List.length l1)) with (S i + List.length l1) in E by lia.
    unfold and_then. rewrite (IH (S i) _ _ _ Hl E N). destruct r; reflexivity.
Qed.
Theorem C81_first_failure : forall o ws t l1 p l2 t1 effs t2 e t3, chanomarc_unset (ws t) ->
  seen ws (t + 3) (candidates (w_home (ws (t + 1))) (w_cwd (ws (t + 2)))) (l1 ++ p :: l2) t1 -> read_in_turn ws t1 l1 effs t2 ->
  (forall o', from_config_file_timed o' p ws t2 = (Err e, t3)) -> load_rc_timed o ws t = (Err e, t3).
Proof.
  intros o ws t l1 p l2 t1 effs t2 e t3 U HS R E. rewrite (load_paths o ws t _ t1 (paths_unset ws t _ t1 U HS)).
  unfold and_then. rewrite (files_prefix o ws p l2 _ _ l1 0 t1 effs t2 R (E _)); [reflexivity|discriminate].
Qed.
Print Assumptions C81_first_failure.

(** One change during the load of one file. *)
Lemma switch_cases w1 w2 k ws t : switches w1 w2 k ws ->
  (ws t = w1 /\ ws (S t) = w1) \/ (ws t = w1 /\ ws (S t) = w2) \/ (ws t = w2 /\ ws (S t) = w2).
Proof.
  intros H. rewrite !H. destruct (Nat.ltb_spec t k); destruct (Nat.ltb_spec (S t) k); auto. lia.
Qed.
Lemma yaml_load o w p : is_yaml p -> from_config_file o w p =
  bind (load_items_to_character_converter w p Yaml) (fun cc => bind (modifiers_from_yaml_path o w p) (fun ms => Ok (ms ++ [MConv cc]))).
Proof. intros X. apply ext_yaml_iff in X. unfold from_config_file, configuration_from_path, load_file_with_ext. rewrite X. reflexivity. Qed.
(** A CSV file is loaded as it was or as it is. *)
Theorem C81_csv_not_mixed : forall o p w1 w2 k ws t, has_extension p (lit "csv") -> switches w1 w2 k ws ->
  fst (from_config_file_timed o p ws t) = from_config_file o w1 p \/ fst (from_config_file_timed o p ws t) = from_config_file o w2 p.
Proof.
  intros o p w1 w2 k ws t X H. rewrite (timed_csv o p ws t X). cbn [fst]. rewrite H. destruct (Nat.ltb t k); auto.
Qed.
Print Assumptions C81_csv_not_mixed.
(** So is a YAML file of which only the items or only the modifiers change. *)
Theorem C81_one_part_changed : forall o p w1 w2 d1 d2 k ws t, is_yaml p -> switches w1 w2 k ws ->
  w_yaml w1 p = Some (Some d1) -> w_yaml w2 p = Some (Some d2) ->
  (forall v, key_value d1 (lit "modifiers") v <-> key_value d2 (lit "modifiers") v) \/
  (forall v, key_value d1 (lit "items") v <-> key_value d2 (lit "items") v) ->
  fst (from_config_file_timed o p ws t) = from_config_file o w1 p \/ fst (from_config_file_timed o p ws t) = from_config_file o w2 p.
Proof.
  intros o p w1 w2 d1 d2 k ws t X H Y1 Y2 S. rewrite (timed_yaml o p ws t X), !(yaml_load o _ p X).
  assert (G : forall key, (forall v, key_value d1 key v <-> key_value d2 key v) -> yget key d1 = yget key d2).
  { intros key K. destruct (yget key d1) as [v|] eqn:E1.
    - apply yget_iff, K, yget_iff in E1. congruence.
    - destruct (yget key d2) as [v|] eqn:E2; [|reflexivity]. apply yget_iff, K, yget_iff in E2. congruence. }
  destruct (switch_cases _ _ _ _ t H) as [[-> ->]|[[-> ->]|[-> ->]]].
  - left. destruct (load_items_to_character_converter w1 p Yaml); cbn [bind]; [destruct (modifiers_from_yaml_path o w1 p)|..]; reflexivity.
  - destruct S as [S|S]; apply G in S.
    + left. assert (E : modifiers_from_yaml_path o w2 p = modifiers_from_yaml_path o w1 p).
      { unfold modifiers_from_yaml_path, read_yaml. rewrite Y1, Y2. cbn [bind]. unfold modifiers_of_yaml. rewrite S. reflexivity. }
      rewrite E. destruct (load_items_to_character_converter w1 p Yaml); cbn [bind]; [destruct (modifiers_from_yaml_path o w1 p)|..]; reflexivity.
    + right. assert (E : load_items_to_character_converter w1 p Yaml = load_items_to_character_converter w2 p Yaml).
      { unfold load_items_to_character_converter, table_from_yaml_path, read_yaml. rewrite Y1, Y2. cbn [bind]. unfold yaml_items. rewrite S. reflexivity. }
      rewrite E. destruct (load_items_to_character_converter w2 p Yaml); cbn [bind]; [destruct (modifiers_from_yaml_path o w2 p)|..]; reflexivity.
  - right. destruct (load_items_to_character_converter w2 p Yaml); cbn [bind]; [destruct (modifiers_from_yaml_path o w2 p)|..]; reflexivity.
Qed.
Print Assumptions C81_one_part_changed.
(** Otherwise a YAML file may be loaded as neither. *)
Definition version (item modifier : yval * yval) : yval := YMap [(YStr (lit "items"), YMap [item]); (YStr (lit "modifiers"), YMap [modifier])].
Definition version1 := version (YStr (lit "b"), YStr (lit "a")) (YStr (lit "trim"), YNull).
Definition version2 := version (YStr (lit "c"), YStr (lit "a")) (YStr (lit "character_converter"), YMap [(YStr (lit "x"), YStr (lit "y"))]).
Lemma conv_out cc s out : result [MConv cc] s out -> normalize false no_order [MConv cc] s = Ok out.
Proof. intros (o & H). rewrite <- H. apply C01_order_independent. Qed.
Lemma trim_out s out : result [MTrim] s out -> normalize false no_order [MTrim] s = Ok out.
Proof. intros (o & H). exact H. Qed.
Ltac run_two H := apply (result_app [_] [_]) in H as (mid & H1 & H2); first [apply conv_out in H1|apply trim_out in H1]; apply conv_out in H2;
  vm_compute in H1; injection H1 as <-; vm_compute in H2.
Theorem C81_mixture_refuted : exists o p w1 w2 k ws t c1 c2 c s, switches w1 w2 k ws /\
  from_config_file o w1 p = Ok c1 /\ from_config_file o w2 p = Ok c2 /\ fst (from_config_file_timed o p ws t) = Ok c /\
  (forall out, result c s out -> ~ result c1 s out /\ ~ result c2 s out) /\ exists out, result c s out.
Proof.
  exists no_order, (lit "/h/chanomarc.yaml"), (yaml_world version1), (yaml_world version2), 1, (fun i => if Nat.ltb i 1 then yaml_world version1 else yaml_world version2), 0.
  eexists. eexists. eexists. exists (lit " ax ").
  split; [intros i; reflexivity|]. split; [vm_compute; reflexivity|]. split; [vm_compute; reflexivity|]. split; [vm_compute; reflexivity|].
  split.
  - intros out H. run_two H. injection H2 as <-. split; intros H; run_two H; discriminate.
  - eexists. exists no_order. vm_compute. reflexivity.
Qed.
Print Assumptions C81_mixture_refuted.
Definition ws_case (i : nat) : world :=
  match i with
  | 0 | 1 | 2 => search_world ["/d/chanomarc.yaml"; "/h/.chanomarc.csv"] "/h" "/d"
  | 12 | 13 => search_world [] "/h" "/d"
  | 17 => yaml_world version2
  | _ => search_world ["/h/.chanomarc.csv"; "/d/chanomarc.yaml"; "/d/.chanomarc.yaml"] "/h" "/d"
  end.
(** [/d/chanomarc.yaml] is away when it is looked at; [/d/.chanomarc.yaml] is replaced between its two reads. *)
Example C81_case :
  file_paths_timed ws_case 0 = (Ok [lit "/h/.chanomarc.csv"; lit "/d/.chanomarc.yaml"], 15) /\
  fst (load_rc_timed no_order ws_case 0) = Ok [MConv [(99, 100)]; MConv [(120, 121)]; MConv [(97, 98); (99, 98)]]%N /\
  chanomarc_unset (ws_case 0) /\
  from_config_file_timed no_order (lit "/d/c.yml") (fun i => if Nat.ltb i 6 then yaml_world version1 else yaml_world version2) 5 =
    (Ok [MConv [(120, 121)]; MConv [(97, 98)]]%N, 7) /\
  switches (yaml_world version1) (yaml_world version2) 6 (fun i => if Nat.ltb i 6 then yaml_world version1 else yaml_world version2).
Proof. split; [vm_compute; reflexivity|]. split; [vm_compute; reflexivity|]. split; [intros s; discriminate|]. split; [vm_compute; reflexivity|intros i; reflexivity]. Qed.
