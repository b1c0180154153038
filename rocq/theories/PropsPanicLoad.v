(** Property C104, continued: where loading a configuration, parsing a modifier and the command panic. *)
From Coq Require Import String.
From Verif Require Import Base BaseFacts StrOps Corr Table Converter Eliminator Reducer Ligature Neologdn ModifierKind PathModel Yaml File ChanomaModel Configuration Cli
  Spec CorrFacts ConverterFacts TableFacts ConverterProps FileSpec PathSpec ConfigSpec BinSpec ParseSpec CharsetFacts FileProps PathProps YamlProps ConfigProps ParseProps PropsPipeline BinProps PropsConverter PanicSpec PanicPlace PanicFacts PropsPanic.
Local Open Scope string_scope.
Local Open Scope list_scope.

Lemma forget_ok {A} (x : located A) a : x = LOk a <-> forget x = Ok a.
Proof. destruct x; cbn; split; intros H; try discriminate H; injection H as ->; reflexivity. Qed.
Lemma csv_bad l p : csv_items_at l = LPanic p <-> exists pre post, l = map CsvFields pre ++ CsvFields [] :: post /\ ~ In [] pre /\ p = record_without_fields.
Proof.
  induction l as [|[r| |] l IH]; cbn [csv_items_at].
  - split; [discriminate|]. intros (pre & post & E & _). destruct pre; discriminate E.
  - rewrite bind_panic. unfold record_items_at at 1. rewrite bind_panic, unwrap_panic. split.
    + intros [[[H ->]|(t & _ & H)]|(its & H & G)]; [|discriminate H|].
      * exists [], l. split; [|split; [intros []|reflexivity]]. cbn. f_equal. f_equal. destruct r as [|x r]; [reflexivity|]. destruct (rev (x :: r)) eqn:E; [|discriminate H].
        apply (f_equal (@rev str)) in E. rewrite rev_involutive in E. exact E.
      * apply bind_panic in G as [G|(? & _ & G)]; [|discriminate G]. apply IH in G as (pre & post & -> & N & ->). exists (r :: pre), post. split; [reflexivity|]. split; [|reflexivity].
        intros [->|I]; [discriminate H|contradiction].
    + intros (pre & post & E & N & ->). destruct pre as [|r' pre]; cbn [map app] in E; injection E as -> ->; [left; left; auto|]. right.
      destruct (record_items_cases r') as (its & Q); [intros ->; apply N; left; reflexivity|].
      exists its. split; [apply forget_ok; unfold record_items_at; rewrite forget_bind, forget_unwrap; exact Q|]. apply bind_panic. left. apply IH. exists pre, post.
      split; [reflexivity|]. split; [intros I; apply N; right; exact I|reflexivity].
  - split; [discriminate|]. intros (pre & post & E & _). destruct pre; discriminate E.
  - split; [discriminate|]. intros (pre & post & E & _). destruct pre; discriminate E.
Qed.
Lemma csv_table_bad w f p : table_from_csv_path_at w f = LPanic p <->
  exists h pre post, w_csv w f = Some (h :: map CsvFields pre ++ CsvFields [] :: post) /\ h <> CsvIoError /\ ~ In [] pre /\ p = record_without_fields.
Proof.
  unfold table_from_csv_path_at. destruct (w_csv w f) as [[|h recs]|].
  - cbn. split; [discriminate|]. intros (h & pre & post & E & _). discriminate E.
  - assert (H : (items <~ csv_items_at recs ;; LOk (table_from_corr items (OriginFile f))) = LPanic p <->
      exists h0 pre post, Some (h :: recs) = Some (h0 :: map CsvFields pre ++ CsvFields [] :: post) /\ ~ In [] pre /\ p = record_without_fields).
    { rewrite ok_after, csv_bad. split; [intros (pre & post & -> & N & ->); exists h, pre, post; auto|]. intros (h0 & pre & post & E & N & ->). injection E as _ ->. exists pre, post. auto. }
    destruct h as [r| |]; cbn [tl].
    + rewrite H. split; intros (h0 & pre & post & E & N).
      * injection E as <- ->. exists (CsvFields r), pre, post. split; [reflexivity|]. split; [discriminate|exact N].
      * exists h0, pre, post. split; [exact E|apply N].
    + rewrite H. split; intros (h0 & pre & post & E & N).
      * injection E as <- ->. exists CsvNotUtf8, pre, post. split; [reflexivity|]. split; [discriminate|exact N].
      * exists h0, pre, post. split; [exact E|apply N].
    + split; [discriminate|]. intros (h0 & pre & post & E & N & _). injection E as <- _. contradiction.
  - split; [discriminate|]. intros (h & pre & post & E & _). discriminate E.
Qed.
Lemma yaml_table_bad w f p : table_from_yaml_path_at w f = LPanic p <-> exists data, w_yaml w f = Some (Some data) /\ items_bad data p.
Proof.
  unfold table_from_yaml_path_at, read_yaml_at. destruct (w_yaml w f) as [[data|]|]; cbn [lbind].
  - rewrite ok_after, items_bad_iff. split; [intros H; exists data; auto|]. intros (d & E & H). injection E as ->. exact H.
  - split; [discriminate|]. intros (d & E & _). discriminate E.
  - split; [discriminate|]. intros (d & E & _). discriminate E.
Qed.
Lemma insert_items_eq items : insert_items [] items = if forallb nonempty_item items then Ok (hm_collect N.eqb (pairs_of items)) else Panic.
Proof. change items with (table_items (Table items (OriginFile []))) at 1. rewrite <- from_one. apply from_tables_one. Qed.
Lemma sides_fine items : no_empty_string items <-> forall q, ~ first_bad side_bad items q.
Proof.
  assert (N : no_error (insert_items_at [] items)).
  { generalize (@nil (char * char)). induction items as [|it items IH]; intros m; cbn [insert_items_at]; [apply no_error_ok|]. apply no_error_bind; [apply no_error_unwrap|]. intros f.
    apply no_error_bind; [apply no_error_unwrap|]. intros t. apply IH. }
  rewrite no_empty_iff. split.
  - intros H q B. apply (insert_bad _ []) in B. assert (E : forget (insert_items_at [] items) = Panic) by (rewrite B; reflexivity). rewrite forget_insert in E.
    rewrite insert_items_eq, H in E. discriminate E.
  - intros H. assert (F : exists c, insert_items_at [] items = LOk c). { apply fine_iff; [exact N|]. intros q Q. apply insert_bad in Q. exact (H q Q). }
    destruct F as (c & F). apply forget_ok in F. rewrite forget_insert, insert_items_eq in F. destruct (forallb nonempty_item items); [reflexivity|discriminate F].
Qed.
Theorem C104_file : forall o w f p, load_file_with_ext_at o w f = LPanic p <-> file_bad w f p.
Proof.
  intros o w f p. unfold load_file_with_ext_at. split.
  - destruct (ext_from_path f) as [ext|e|] eqn:X; [|discriminate|].
    + intros H. apply bind_panic in H as [H|(t & T & H)].
      * destruct ext.
        -- apply ext_csv_iff in X. apply csv_table_bad in H as (h & pre & post & E & N & I & ->). eapply fb_record; eassumption.
        -- apply ext_yaml_iff in X. apply yaml_table_bad in H as (d & E & H). eapply fb_items; eassumption.
      * apply forget_ok in T. apply bind_panic in H as [H|(cc & C & H)].
        -- apply insert_bad in H. destruct ext.
           ++ apply ext_csv_iff in X. rewrite forget_csv_table in T. apply C39_iff in T as (recs & rows & E & Hh & Et & R & _). eapply fb_row; eassumption.
           ++ apply ext_yaml_iff in X. rewrite forget_yaml_table in T. apply C42_iff in T as (d & E & I & _). eapply fb_side; eassumption.
        -- apply ok_after in H. destruct ext; [discriminate H|]. apply ext_yaml_iff in X. rewrite forget_yaml_table in T. apply C42_iff in T as (d & E & I & _).
           unfold read_yaml_at in H. rewrite E in H. cbn [lbind] in H. apply modifiers_bad_iff in H. eapply fb_modifiers; try eassumption.
           apply sides_fine. intros q Q. apply (insert_bad _ []) in Q. congruence.
    + exfalso. unfold ext_from_path in X. destruct (extension f); [|discriminate X]. cbn [bind] in X. destruct (to_str p0); [|discriminate X]. cbn [bind] in X. unfold ext_from_str in X.
      destruct (_ || _); [discriminate X|]. destruct (_ || _); discriminate X.
  - intros H. destruct H as [h pre post X E N I|recs rows items p X E Hh Et R B|data p X E B|data items p X E I B|data items p X E I N B].
    + apply ext_csv_iff in X. rewrite X. apply bind_panic. left. apply csv_table_bad. exists h, pre, post. auto.
    + apply ext_csv_iff in X. rewrite X. apply bind_panic. right. exists (Table items (OriginFile f)). split.
      * apply forget_ok. rewrite forget_csv_table. apply C39_iff. exists recs, rows. auto.
      * apply bind_panic. left. apply insert_bad, B.
    + apply ext_yaml_iff in X. rewrite X. apply bind_panic. left. apply yaml_table_bad. exists data. auto.
    + apply ext_yaml_iff in X. rewrite X. apply bind_panic. right. exists (Table items (OriginFile f)). split.
      * apply forget_ok. rewrite forget_yaml_table. apply C42_iff. exists data. auto.
      * apply bind_panic. left. apply insert_bad, B.
    + apply ext_yaml_iff in X. rewrite X. apply bind_panic. right. exists (Table items (OriginFile f)). split.
      * apply forget_ok. rewrite forget_yaml_table. apply C42_iff. exists data. auto.
      * apply bind_panic. right. eexists. split.
        -- apply forget_ok. rewrite forget_insert, insert_items_eq. apply no_empty_iff in N. change (table_items (Table items (OriginFile f))) with items. rewrite N. reflexivity.
        -- apply ok_after. unfold read_yaml_at. rewrite E. cbn [lbind]. apply modifiers_bad_iff, B.
Qed.
Print Assumptions C104_file.

Lemma loads_iff o w q : (exists c, load_file_with_ext o w q = Ok c) <-> exists e, file_effect w q e.
Proof.
  split; [intros (c & H); apply (C44_ok o) in H as (_ & e & H & _); exists e; exact H|]. intros (e & H). exact (C44_if o w q e H).
Qed.
Lemma files_bad o w ps i p : load_files_at o w i ps = LPanic p <->
  exists pre f post, ps = pre ++ f :: post /\ (forall q, In q pre -> exists e, file_effect w q e) /\ file_bad w f p.
Proof.
  revert i. induction ps as [|q ps IH]; intros i; cbn [load_files_at].
  - split; [discriminate|]. intros (pre & f & post & E & _). destruct pre; discriminate E.
  - rewrite bind_panic. split.
    + intros [H|(c & C & H)].
      * apply C104_file in H. exists [], q, ps. split; [reflexivity|]. split; [intros x []|exact H].
      * apply ok_after, IH in H as (pre & f & post & -> & L & B). exists (q :: pre), f, post. split; [reflexivity|]. split; [|exact B]. intros x [<-|I]; [|apply L, I].
        apply (loads_iff (sub o i)). exists c. rewrite <- forget_file. apply forget_ok, C.
    + intros (pre & f & post & E & L & B). destruct pre as [|x pre]; cbn [app] in E; injection E as -> ->; [left; apply C104_file, B|]. right.
      destruct (L x (or_introl eq_refl)) as (e & Fe). destruct (proj2 (loads_iff (sub o i) w x) (ex_intro _ e Fe)) as (c & C). rewrite <- forget_file in C. exists c. split; [apply forget_ok, C|].
      apply ok_after, IH. exists pre, f, post. split; [reflexivity|]. split; [intros y I; apply L; right; exact I|exact B].
Qed.
Lemma load_at_paths o w p : configuration_load_at o w = LPanic p <-> file_paths_at w = LPanic p \/ exists ps, file_paths_at w = LOk ps /\ load_files_at o w 0 ps = LPanic p.
Proof.
  unfold configuration_load_at. rewrite bind_panic. split; (intros [H|(ps & H & G)]; [left; exact H|right; exists ps; split; [exact H|]]).
  - destruct ps; [discriminate G|]. apply ok_after in G. exact G.
  - destruct ps; [discriminate G|]. apply ok_after. exact G.
Qed.
Lemma valid_panic w s p : unicode s -> (valid_file_path_at w s = LPanic p <-> w_is_file w s = true /\ (forall e, ~ has_extension s e) /\ p = rc_without_extension).
Proof.
  intros U. unfold valid_file_path_at. destruct (w_is_file w s); cbn [negb].
  2: { split; [discriminate|]. intros [H _]. discriminate H. }
  destruct (extension s) as [e|] eqn:X; cbn [unwrap_at lbind].
  - apply extension_iff in X. assert (T : to_str e = Some e).
    { pose proof X as (stem & _ & _ & dir & t & -> & _). apply to_str_iff. split; [|reflexivity].
      unfold unicode in *. rewrite Forall_app in U. destruct U as [_ U]. rewrite Forall_app in U. destruct U as [U _].
      rewrite Forall_app in U. destruct U as [_ U]. rewrite Forall_app in U. apply U. }
    rewrite T. cbn [unwrap_at lbind]. split; [destruct (forallb _ _); discriminate|]. intros (_ & N & _). destruct (N e X).
  - split.
    + intros H. injection H as <-. split; [reflexivity|]. split; [apply extension_None, X|reflexivity].
    + intros (_ & _ & ->). reflexivity.
Qed.
Lemma valid_ok w s ps : unicode s -> (valid_file_path_at w s = LOk ps <-> w_is_file w s = true /\ (has_extension s (lit "csv") \/ has_extension s (lit "yaml")) /\ ps = [s]).
Proof.
  intros U. unfold valid_file_path_at. destruct (w_is_file w s); cbn [negb].
  2: { split; [discriminate|]. intros [H _]. discriminate H. }
  destruct (extension s) as [e|] eqn:X; cbn [unwrap_at lbind].
  - pose proof X as X'. apply extension_iff in X. assert (T : to_str e = Some e).
    { pose proof X as (stem & _ & _ & dir & t & -> & _). apply to_str_iff. split; [|reflexivity].
      unfold unicode in *. rewrite Forall_app in U. destruct U as [_ U]. rewrite Forall_app in U. destruct U as [U _].
      rewrite Forall_app in U. destruct U as [_ U]. rewrite Forall_app in U. apply U. }
    rewrite T. cbn [unwrap_at lbind all_extensions forallb ext_to_string].
    assert (Q : forall x, has_extension s x <-> e = x). { intros x. rewrite <- extension_iff, X'. split; [intros H; injection H as ->; reflexivity|intros ->; reflexivity]. }
    rewrite !Q. destruct (str_eqb_spec (lit "csv") e) as [<-|N1]; cbn [negb andb].
    + split; [intros H; injection H as <-; auto|]. intros (_ & _ & ->). reflexivity.
    + destruct (str_eqb_spec (lit "yaml") e) as [<-|N2]; cbn [negb andb].
      * split; [intros H; injection H as <-; auto|]. intros (_ & _ & ->). reflexivity.
      * split; [discriminate|]. intros (_ & [H|H] & _); congruence.
  - split; [discriminate|]. intros (_ & [H|H] & _); apply extension_iff in H; congruence.
Qed.
Lemma one_file w s p : (exists pre f post, [s] = pre ++ f :: post /\ (forall q, In q pre -> exists e, file_effect w q e) /\ file_bad w f p) <-> file_bad w s p.
Proof.
  split.
  - intros (pre & f & post & E & _ & B). destruct pre as [|x pre]; cbn [app] in E; [injection E as <- _; exact B|]. injection E as _ E. destruct pre; discriminate E.
  - intros B. exists [], s, []. split; [reflexivity|]. split; [intros q []|exact B].
Qed.
Lemma paths_unset w : chanomarc_unset w -> file_paths_at w = LOk (found w).
Proof.
  intros U. unfold file_paths_at, file_path_from_env, exists_file_paths. rewrite dirs_candidates. destruct (w_env w) as [| |s] eqn:E; [reflexivity..|]. destruct (U s E).
Qed.
Theorem C104_load : forall o w p, (forall s, w_env w = EnvUnicode s -> unicode s) -> (configuration_load_at o w = LPanic p <-> configuration_bad w p).
Proof.
  intros o w p U. rewrite load_at_paths. destruct (w_env w) as [| |s] eqn:E.
  3: { specialize (U s eq_refl). unfold file_paths_at, file_path_from_env. rewrite E, (valid_panic w s p U). split.
    - intros [(F & N & ->)|(ps & V & L)]; [eapply kb_extension; eassumption|]. apply (valid_ok w s ps U) in V as (F & X & ->). apply files_bad, one_file in L. eapply kb_env; eassumption.
    - intros H. destruct H as [s' E' F N|s' p E' F X B|pre f post p N _ _ _].
      + rewrite E in E'. injection E' as <-. left. auto.
      + rewrite E in E'. injection E' as <-. right. exists [s]. split; [apply (valid_ok w s _ U); auto|]. apply files_bad, one_file, B.
      + destruct (N s E). }
  all: assert (N : chanomarc_unset w) by (intros s; congruence); rewrite (paths_unset w N); (split;
    [intros [H|(ps & H & L)]; [discriminate H|injection H as <-; apply files_bad in L as (pre & f & post & Q & L & B); eapply kb_found; eassumption]
    |intros H; destruct H as [s' E' F X|s' p E' F X B|pre f post p _ Q L B]; [congruence|congruence|right; exists (found w); split; [reflexivity|apply files_bad; exists pre, f, post; auto]]]).
Qed.
Print Assumptions C104_load.

Lemma prefix_at a b p r : argument_at a b p (p ++ r) = match strip_suffix_char RPAREN r with Some x => LOk x | None => LPanic b end.
Proof. unfold argument_at, strip_prefix. rewrite starts_with_app. cbn [unwrap_at lbind]. rewrite skipn_app, skipn_all, Nat.sub_diag. cbn [app skipn]. destruct (strip_suffix_char RPAREN r); reflexivity. Qed.
Lemma suffix_none r : strip_suffix_char RPAREN r = None <-> forall a, r <> a ++ [rparen].
Proof.
  unfold strip_suffix_char. split.
  - intros H a ->. rewrite rev_app_distr in H. cbn [rev app] in H. change (N.eqb rparen RPAREN) with true in H. discriminate H.
  - intros H. destruct (rev r) as [|x t] eqn:E; [reflexivity|]. destruct (N.eqb_spec x RPAREN) as [->|_]; [|reflexivity].
    exfalso. apply (H (rev t)). apply (f_equal (@rev char)) in E. rewrite rev_involutive in E. exact E.
Qed.
Lemma suffix_some r a : strip_suffix_char RPAREN r = Some a <-> r = a ++ [rparen].
Proof.
  unfold strip_suffix_char. split.
  - intros H. destruct (rev r) as [|x t] eqn:E; [discriminate H|]. destruct (N.eqb_spec x RPAREN) as [->|_]; [|discriminate H]. injection H as <-.
    apply (f_equal (@rev char)) in E. rewrite rev_involutive in E. exact E.
  - intros ->. rewrite rev_app_distr. cbn [rev app]. change (N.eqb rparen RPAREN) with true. cbn iota. rewrite rev_involutive. reflexivity.
Qed.
Lemma after_argument {A B} (b : place) r (f : str -> outcome A) (g : A -> B) p : (forall a, f a <> Panic) ->
  ((a <~ match strip_suffix_char RPAREN r with Some x => LOk x | None => LPanic b end ;; x <~ plainly nowhere (f a) ;; LOk (g x)) = LPanic p <-> (forall a, r <> a ++ [rparen]) /\ p = b).
Proof.
  intros N. rewrite <- suffix_none. destruct (strip_suffix_char RPAREN r) as [a|]; cbn [lbind].
  - rewrite ok_after. split; [|intros [H _]; discriminate H]. specialize (N a). destruct (f a); cbn [plainly]; intros H; [discriminate H|discriminate H|contradiction].
  - split; [intros H; injection H as <-; auto|]. intros [_ ->]. reflexivity.
Qed.
Lemma lig_no_panic a : lig_from_str a <> Panic.
Proof. unfold lig_from_str. destruct (split COMMA a) as [|? [|? [|? ?]]]; discriminate. Qed.
Lemma elim_no_panic a : elim_from_str a <> Panic.
Proof. rewrite elim_from_str_eq. destruct (flat_map fchars (split COMMA a)); discriminate. Qed.
Lemma conv_no_panic a : conv_from_str a <> Panic.
Proof. rewrite conv_from_str_eq. destruct (flat_map fpair (split COMMA a)); discriminate. Qed.
Lemma parse_reducer_at o r : modifier_from_str_at o (P_reducer ++ r) = (a <~ argument_at reducer_prefix reducer_open P_reducer (P_reducer ++ r) ;; c <~ red_from_str_at a ;; LOk (MRed c)).
Proof. reflexivity. Qed.
Lemma parse_ligature_at o r : modifier_from_str_at o (P_ligature ++ r) = (a <~ argument_at ligature_prefix ligature_open P_ligature (P_ligature ++ r) ;; l <~ plainly nowhere (lig_from_str a) ;; LOk (MLig l)).
Proof. reflexivity. Qed.
Lemma parse_eliminator_at o r : modifier_from_str_at o (P_eliminator ++ r) = (a <~ argument_at eliminator_prefix eliminator_open P_eliminator (P_eliminator ++ r) ;; e <~ plainly nowhere (elim_from_str a) ;; LOk (MElim e)).
Proof. reflexivity. Qed.
Lemma parse_converter_at o r : modifier_from_str_at o (P_converter ++ r) = (a <~ argument_at converter_prefix converter_open P_converter (P_converter ++ r) ;; c <~ plainly nowhere (conv_from_str a) ;; LOk (MConv c)).
Proof. reflexivity. Qed.
Lemma reducer_bad r p : (a <~ match strip_suffix_char RPAREN r with Some x => LOk x | None => LPanic reducer_open end ;; c <~ red_from_str_at a ;; LOk (MRed c)) = LPanic p <->
  ((forall a, r <> a ++ [rparen]) /\ p = reducer_open) \/ (r = [rparen] /\ p = reducer_empty).
Proof.
  destruct (strip_suffix_char RPAREN r) as [a|] eqn:S; cbn [lbind].
  - apply suffix_some in S. subst r. rewrite ok_after. unfold red_from_str_at. rewrite unwrap_panic, first_none. split.
    + intros [-> ->]. right. auto.
    + intros [[N _]|[E ->]]; [destruct (N a eq_refl)|]. destruct a as [|x a]; [auto|]. injection E as _ E. destruct a; discriminate E.
  - pose proof (proj1 (suffix_none r) S) as S'. clear S. rename S' into S. split; [intros H; injection H as <-; left; auto|]. intros [[_ ->]|[-> _]]; [reflexivity|]. destruct (S [] eq_refl).
Qed.
Theorem C104_from_str : forall o s p, modifier_from_str_at o s = LPanic p <-> string_bad s p.
Proof.
  intros o s p. split.
  - intros H. destruct (starts_with P_reducer s) eqn:E1; [|destruct (starts_with P_ligature s) eqn:E2; [|destruct (starts_with P_eliminator s) eqn:E3; [|destruct (starts_with P_converter s) eqn:E4]]].
    + apply starts_with_iff in E1 as (r & ->). rewrite parse_reducer_at, prefix_at in H. apply reducer_bad in H as [[N ->]|[-> ->]]; [apply xb_reducer, N|apply xb_reducer_empty].
    + apply starts_with_iff in E2 as (r & ->). rewrite parse_ligature_at, prefix_at in H. apply after_argument in H as [N ->]; [apply xb_ligature, N|apply lig_no_panic].
    + apply starts_with_iff in E3 as (r & ->). rewrite parse_eliminator_at, prefix_at in H. apply after_argument in H as [N ->]; [apply xb_eliminator, N|apply elim_no_panic].
    + apply starts_with_iff in E4 as (r & ->). rewrite parse_converter_at, prefix_at in H. apply after_argument in H as [N ->]; [apply xb_converter, N|apply conv_no_panic].
    + exfalso. unfold modifier_from_str_at in H. rewrite E1, E2, E3, E4 in H. destruct (str_eqb s S_neologdn).
      * apply ok_after in H. destruct (neo_fine o) as (n & Q). rewrite Q in H. discriminate H.
      * destruct (str_eqb s S_trim); [discriminate H|]. destruct (str_eqb s S_dotted); discriminate H.
  - intros H. destruct H as [r N| |r N|r N|r N].
    + change (modifier_from_str_at o (P_reducer ++ r) = LPanic reducer_open). rewrite parse_reducer_at, prefix_at. apply reducer_bad. left. auto.
    + change (modifier_from_str_at o (P_reducer ++ [rparen]) = LPanic reducer_empty). rewrite parse_reducer_at, prefix_at. apply reducer_bad. right. auto.
    + change (modifier_from_str_at o (P_ligature ++ r) = LPanic ligature_open). rewrite parse_ligature_at, prefix_at. apply after_argument; [apply lig_no_panic|auto].
    + change (modifier_from_str_at o (P_eliminator ++ r) = LPanic eliminator_open). rewrite parse_eliminator_at, prefix_at. apply after_argument; [apply elim_no_panic|auto].
    + change (modifier_from_str_at o (P_converter ++ r) = LPanic converter_open). rewrite parse_converter_at, prefix_at. apply after_argument; [apply conv_no_panic|auto].
Qed.
Print Assumptions C104_from_str.

Lemma fold_fine o w c op i text : good_env w -> load_rc o w = Ok c -> exists out, normalize_fold i 0 (cli_modifiers op c) text = Ok out /\
  (cli_modifiers op c <> [] -> exists rs r, normalize_with_positions i (cli_modifiers op c) text = Ok (rs ++ [r])) /\ (cli_modifiers op c = [] -> normalize_with_positions i (cli_modifiers op c) text = Ok []).
Proof.
  intros U H. destruct (C32_lemma i (cli_modifiers op c) text (cli_modifiers_constructible op c (load_rc_constructible o w c U H))) as (out & E1 & E2).
  exists out. split; [exact E1|]. unfold normalize in E2. cbn [negb] in E2. split.
  - intros N. destruct (normalize_with_positions i (cli_modifiers op c) text) as [rs| |]; cbn [bind] in E2.
    + destruct (rev rs) as [|r t] eqn:R.
      * unfold records_text in E2. rewrite R in E2. destruct (cli_modifiers op c); [contradiction|discriminate E2].
      * apply (f_equal (@rev _)) in R. rewrite rev_involutive in R. cbn [rev] in R. rewrite R. eexists. eexists. reflexivity.
    + destruct (cli_modifiers op c); [contradiction|discriminate E2].
    + destruct (cli_modifiers op c); [contradiction|discriminate E2].
  - intros ->. reflexivity.
Qed.
Lemma normalize_bad o w c op i text p : good_env w -> load_rc o w = Ok c ->
  (normalize_at (o_debug op) i (cli_modifiers op c) text = LPanic p <-> o_debug op = true /\ cli_modifiers op c = [] /\ p = no_records).
Proof.
  intros U H. destruct (fold_fine o w c op i text U H) as (out & E & N & Z). unfold normalize_at. destruct (o_debug op); cbn [negb].
  - destruct (cli_modifiers op c) as [|m ms] eqn:C.
    + rewrite Z by reflexivity. cbn. split; [intros Q; injection Q as <-; auto|]. intros (_ & _ & ->). reflexivity.
    + destruct N as (rs & r & N); [discriminate|]. rewrite N. cbn [plainly lbind]. rewrite rev_app_distr. cbn. split; [discriminate|]. intros (_ & Q & _). discriminate Q.
  - rewrite E. cbn. split; [discriminate|]. intros [Q _]. discriminate Q.
Qed.
Lemma cli_at_eq o w op stdin c : configuration_load_at (sub o 0) w = LOk c -> cli_main_at o w op stdin = match o_input op, stdin with
  | Some t, _ => r <~ normalize_at (o_debug op) (sub o 3) (cli_modifiers op c) t ;; LOk (Printed r)
  | None, None => LOk StdinError
  | None, Some s => r <~ normalize_at (o_debug op) (sub o 3) (cli_modifiers op c) (trim_end_matches NEWLINE (read_line s)) ;; LOk (Printed r)
  end.
Proof.
  intros H. unfold cli_main_at. rewrite H. cbn [lbind]. unfold cli_modifiers.
  destruct (o_preset op), (o_neologdn op); rewrite ?use_preset_eq; cbn [plainly lbind asked]; rewrite ?use_neologdn_eq, ?app_nil_r, ?app_nil_l, ?app_assoc; cbn [plainly lbind];
    (destruct (o_input op); [reflexivity|]; destruct stdin; reflexivity).
Qed.
Lemma cli_bad o w op stdin c p : good_env w -> configuration_load_at (sub o 0) w = LOk c -> load_rc o w = Ok c ->
  (cli_main_at o w op stdin = LPanic p <-> o_debug op = true /\ cli_modifiers op c = [] /\ (exists text, input_text op stdin text) /\ p = no_records).
Proof.
  intros U L H. rewrite (cli_at_eq o w op stdin c L). destruct (input_text_cases op stdin) as [(text & T)|(E1 & E2 & T)].
  - assert (N : o_debug op = true /\ cli_modifiers op c = [] /\ (exists text, input_text op stdin text) /\ p = no_records <-> o_debug op = true /\ cli_modifiers op c = [] /\ p = no_records).
    { split; [intros (A & B & _ & C); auto|intros (A & B & C); repeat split; eauto]. }
    rewrite N. clear N. apply input_text_eq in T. destruct (o_input op); [|destruct stdin; [|contradiction]]; rewrite ok_after; apply (normalize_bad o w c op _ _ p U H).
  - rewrite E1, E2. split; [discriminate|]. intros (_ & _ & (t & K) & _). subst stdin. destruct (T t K).
Qed.
Theorem C104_cli : forall o w op stdin p, (forall s, w_env w = EnvUnicode s -> unicode s) -> (cli_main_at o w op stdin = LPanic p <->
  configuration_bad w p \/ ((exists e, load_rc o w = Err e) /\ p = configuration_refused) \/
  (load_rc o w = Ok [] /\ o_debug op = true /\ o_preset op = false /\ o_neologdn op = false /\ (exists text, input_text op stdin text) /\ p = no_records)).
Proof.
  intros o w op stdin p U. destruct (configuration_load_at (sub o 0) w) as [c|e|q] eqn:L.
  - assert (H : load_rc o w = Ok c). { rewrite (load_rc_order o (sub o 0)). unfold load_rc. rewrite <- forget_load, L. reflexivity. }
    assert (B : ~ configuration_bad w p) by (intros B; apply (C104_load (sub o 0)) in B; [congruence|exact U]).
    rewrite (cli_bad o w op stdin c p U L H), H, cli_modifiers_nil. split.
    + intros (D & (-> & P & N) & T & ->). right. right. auto 7.
    + intros [Q|[((e & Q) & _)|(Q & D & P & N & T & ->)]]; [contradiction|discriminate Q|]. injection Q as ->. auto 7.
  - assert (H : load_rc o w = Err e). { rewrite (load_rc_order o (sub o 0)). unfold load_rc. rewrite <- forget_load, L. reflexivity. }
    assert (B : ~ configuration_bad w p) by (intros B; apply (C104_load (sub o 0)) in B; [congruence|exact U]).
    unfold cli_main_at. rewrite L. cbn [lbind]. rewrite H. split.
    + intros Q. injection Q as <-. right. left. eauto.
    + intros [Q|[(_ & ->)|(Q & _)]]; [contradiction|reflexivity|discriminate Q].
  - assert (H : load_rc o w = Panic). { rewrite (load_rc_order o (sub o 0)). unfold load_rc. rewrite <- forget_load, L. reflexivity. }
    unfold cli_main_at. rewrite L. cbn [lbind]. rewrite H. split.
    + intros Q. injection Q as ->. left. apply (C104_load (sub o 0)); assumption.
    + intros [Q|[((e & Q) & _)|(Q & _)]]; [|discriminate Q|discriminate Q]. apply (C104_load (sub o 0)) in Q; [|exact U]. congruence.
Qed.
Print Assumptions C104_cli.

(** ** Only these places, and one place at a time *)
Definition loading_places : list place :=
  [rc_without_extension; record_without_fields; items_not_mapping; items_element_not_text; items_list_key_not_text; items_value_not_text; items_key_not_text; modifiers_not_mapping; modifier_key_not_text;
   converter_not_mapping; converter_key_not_text; converter_key_empty; converter_value_not_text; converter_value_empty; item_from_empty; item_to_empty; eliminator_not_sequence; eliminator_not_text; eliminator_empty;
   reducer_not_text; reducer_empty; ligature_not_mapping; ligature_key_not_text; ligature_value_not_text].
Lemma first_bad_in {A} (bad : A -> place -> Prop) l p L : (forall x q, bad x q -> In q L) -> first_bad bad l p -> In p L.
Proof. intros H (pre & x & post & _ & _ & B). exact (H x p B). Qed.
Ltac listed := solve [unfold loading_places; cbn [In]; repeat ((left; reflexivity) || right)].
Lemma modifier_listed x q : modifier_bad x q -> In q loading_places.
Proof.
  intros H. destruct H; try listed.
  - eapply first_bad_in; [|eassumption]. intros y q B. destruct B; listed.
  - eapply first_bad_in; [|eassumption]. intros y q B. destruct B; listed.
  - eapply first_bad_in; [|eassumption]. intros y q B. destruct B; listed.
Qed.
Lemma file_listed w f p : file_bad w f p -> In p loading_places.
Proof.
  intros H. destruct H as [| ? ? ? p ? ? ? ? ? B|? p ? ? (m & _ & [[_ ->]|(l & _ & B)])|? ? p ? ? ? B|? ? p ? ? ? ? (m & _ & [[_ ->]|(pre & x & post & _ & _ & B)])]; try listed.
  - eapply first_bad_in; [|exact B]. intros y q Q. destruct Q; listed.
  - eapply first_bad_in; [|exact B]. intros y q Q. destruct Q; listed.
  - eapply first_bad_in; [|exact B]. intros y q Q. destruct Q; listed.
  - eapply modifier_listed, B.
Qed.
Theorem C104_places : forall o w p, (forall s, w_env w = EnvUnicode s -> unicode s) ->
  (forall f, load_file_with_ext_at o w f = LPanic p -> In p loading_places) /\
  (configuration_load_at o w = LPanic p -> In p loading_places) /\
  (forall op stdin, cli_main_at o w op stdin = LPanic p -> In p (configuration_refused :: no_records :: loading_places)) /\
  (forall s, modifier_from_str_at o s = LPanic p -> In p [reducer_open; reducer_empty; ligature_open; eliminator_open; converter_open]).
Proof.
  intros o w p U. assert (K : configuration_bad w p -> In p loading_places).
  { intros H. destruct H as [? ? ? ?|? p ? ? ? B|? ? ? p ? ? ? B]; [listed|eapply file_listed, B..]. }
  split; [|split; [|split]].
  - intros f H. apply C104_file in H. eapply file_listed, H.
  - intros H. apply C104_load in H; [|exact U]. exact (K H).
  - intros op stdin H. apply C104_cli in H; [|exact U]. destruct H as [H|[[_ ->]|(_ & _ & _ & _ & _ & ->)]]; [right; right; exact (K H)|left; reflexivity|right; left; reflexivity].
  - intros s H. apply C104_from_str in H. destruct H; cbn; auto 6.
Qed.
Print Assumptions C104_places.

(** ** Concrete cases *)
Definition named (s : str) (y : yval) : world :=
  World (fun _ => true) (fun _ => Some [CsvFields [lit "h"]; CsvFields [lit "a"; lit ""]]) (fun _ => Some (Some y)) (fun p => Some p) (EnvUnicode s) None None.
(** CHANOMARC without an extension: src/configuration.rs:112:51. *)
Example ex_no_extension : configuration_load_at no_order (named (lit "/etc/chanomarc") YNull) = LPanic rc_without_extension.
Proof. vm_compute. reflexivity. Qed.
(** [items] written as the README says: src/file.rs:66:46. *)
Definition readme_items : yval := YMap [(YStr (lit "items"), YSeq [YMap [(YStr (lit "from"), YStr (lit "a")); (YStr (lit "to"), YStr (lit "A"))]])].
Example ex_readme : configuration_load_at no_order (named (lit "/etc/rc.yaml") readme_items) = LPanic items_not_mapping.
Proof. vm_compute. reflexivity. Qed.
Example ex_readme_bad : configuration_bad (named (lit "/etc/rc.yaml") readme_items) items_not_mapping.
Proof. apply (C104_load no_order); [intros s H; injection H as <-; repeat constructor|exact ex_readme]. Qed.
(** A replacement [1:], a number for YAML: src/file.rs:72:76. *)
Example ex_number : configuration_load_at no_order (named (lit "/etc/rc.yaml") (YMap [(YStr (lit "items"), YMap [(YNum, YStr (lit "a"))])])) = LPanic items_key_not_text.
Proof. vm_compute. reflexivity. Qed.
(** An empty replacement in a CSV file: src/modifier/character_converter.rs:162:44. *)
Example ex_csv : configuration_load_at no_order (named (lit "/etc/rc.csv") YNull) = LPanic item_to_empty.
Proof. vm_compute. reflexivity. Qed.
(** An empty side comes before a defect among the modifiers; a refused modifier hides later defects. *)
Definition with_modifiers (items modifiers : list (yval * yval)) : yval := YMap [(YStr (lit "modifiers"), YMap modifiers); (YStr (lit "items"), YMap items)].
Example ex_order : configuration_load_at no_order (named (lit "/etc/rc.yaml") (with_modifiers [(YStr (lit ""), YStr (lit "a"))] [(YNum, YNull)])) = LPanic item_to_empty /\
  configuration_load_at no_order (named (lit "/etc/rc.yaml") (with_modifiers [] [(YStr (lit "trim"), YNull); (YNum, YNull)])) = LPanic modifier_key_not_text /\
  exists e, configuration_load_at no_order (named (lit "/etc/rc.yaml") (with_modifiers [] [(YStr (lit "trim"), YNum); (YNum, YNull)])) = LErr e.
Proof. split; [vm_compute; reflexivity|]. split; [vm_compute; reflexivity|]. eexists. vm_compute. reflexivity. Qed.
(** The command: a refused configuration, and nothing to do while debugging. *)
Example ex_cli : cli_main_at no_order (named (lit "/etc/rc.txt") YNull) (Opts (Some (lit "a")) false false false) None = LPanic configuration_refused /\
  cli_main_at no_order (World (fun _ => false) (fun _ => None) (fun _ => None) (fun _ => None) EnvAbsent None None) (Opts (Some (lit "a")) true false false) None = LPanic no_records.
Proof. split; vm_compute; reflexivity. Qed.
Example ex_str : modifier_from_str_at no_order (lit "character_eliminator(a") = LPanic eliminator_open /\ modifier_from_str_at no_order (lit "consecutive_character_reducer()") = LPanic reducer_empty.
Proof. split; vm_compute; reflexivity. Qed.
