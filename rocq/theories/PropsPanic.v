(** Property C104: where the code panics. *)
From Coq Require Import String.
From Verif Require Import Base BaseFacts StrOps Corr Table Converter Eliminator Reducer Ligature Neologdn ModifierKind PathModel Yaml File ChanomaModel Configuration Cli
  CharsetFacts FileSpec FileProps PanicSpec PanicPlace PanicFacts.
Local Open Scope string_scope.
Local Open Scope list_scope.

(** Without the places, the functions with places are the model's. *)
Theorem C104_same : (forall o w, forget (configuration_load_at o w) = configuration_load o w) /\ (forall o w p, forget (load_file_with_ext_at o w p) = load_file_with_ext o w p) /\
  (forall o s, forget (modifier_from_str_at o s) = modifier_from_str o s) /\ (forall o w op i, forget (cli_main_at o w op i) = cli_main o w op i).
Proof. repeat split; intros; [apply forget_load|apply forget_file|apply forget_from_str|apply forget_cli]. Qed.
Print Assumptions C104_same.

(** ** Generalities *)
Lemma bind_panic {A B} (x : located A) (f : A -> located B) p : lbind x f = LPanic p <-> x = LPanic p \/ exists a, x = LOk a /\ f a = LPanic p.
Proof.
  destruct x as [a|e|q]; cbn [lbind].
  - split; [intros H; right; exists a; auto|]. intros [H|(a' & H & H')]; [discriminate H|]. injection H as ->. exact H'.
  - split; [discriminate|]. intros [H|(a' & H & _)]; discriminate H.
  - split; [intros H; injection H as ->; left; reflexivity|]. intros [H|(a' & H & _)]; [injection H as ->; reflexivity|discriminate H].
Qed.
Lemma unwrap_panic {A} p (x : option A) q : unwrap_at p x = LPanic q <-> x = None /\ q = p.
Proof. destruct x; cbn; split; [discriminate|intros [H _]; discriminate H|intros H; injection H as ->; auto|intros [_ ->]; reflexivity]. Qed.
Lemma unwrap_fine {A} p (x : option A) a : unwrap_at p x = LOk a <-> x = Some a.
Proof. destruct x; cbn; split; intros H; try discriminate H; injection H as ->; reflexivity. Qed.
(** No error, only results and panics. *)
Definition no_error {A} (x : located A) : Prop := forall e, x <> LErr e.
Lemma no_error_bind {A B} (x : located A) (f : A -> located B) : no_error x -> (forall a, no_error (f a)) -> no_error (lbind x f).
Proof. intros H G e. destruct x as [a|e'|p]; cbn [lbind]; [apply G|destruct (H e' eq_refl)|discriminate]. Qed.
Lemma no_error_unwrap {A} p (x : option A) : no_error (unwrap_at p x).
Proof. intros e. destruct x; discriminate. Qed.
Lemma no_error_ok {A} (a : A) : no_error (LOk a).
Proof. intros e. discriminate. Qed.
Lemma no_error_traverse {A B} (f : A -> located B) l : (forall a, no_error (f a)) -> no_error (ltraverse f l).
Proof. intros H. induction l as [|a l IH]; [apply no_error_ok|]. cbn [ltraverse]. apply no_error_bind; [apply H|]. intros b. apply no_error_bind; [exact IH|]. intros; apply no_error_ok. Qed.
Ltac ne := repeat (apply no_error_bind || apply no_error_unwrap || apply no_error_ok || (apply no_error_traverse) || intros ?).
Lemma traverse_panic {A B} (f : A -> located B) l p :
  ltraverse f l = LPanic p <-> exists pre x post, l = pre ++ x :: post /\ (forall y, In y pre -> exists b, f y = LOk b) /\ f x = LPanic p.
Proof.
  induction l as [|a l IH]; cbn [ltraverse].
  - split; [discriminate|]. intros (pre & x & post & E & _). destruct pre; discriminate E.
  - rewrite bind_panic. split.
    + intros [H|(b & H & G)]; [exists [], a, l; split; [reflexivity|]; split; [intros y []|exact H]|]. apply bind_panic in G as [G|(bs & _ & G)]; [|discriminate G].
      apply IH in G as (pre & x & post & -> & F & Q). exists (a :: pre), x, post. split; [reflexivity|]. split; [|exact Q]. intros y [<-|I]; [exists b; exact H|apply F, I].
    + intros (pre & x & post & E & F & Q). destruct pre as [|y pre]; cbn [app] in E; injection E as -> ->; [left; exact Q|].
      right. destruct (F y (or_introl eq_refl)) as (b & Hb). exists b. split; [exact Hb|]. apply bind_panic. left. apply IH. exists pre, x, post. split; [reflexivity|]. split; [|exact Q].
      intros z I. apply F. right. exact I.
Qed.
Lemma fine_iff {A} (x : located A) : no_error x -> ((exists a, x = LOk a) <-> forall p, x <> LPanic p).
Proof.
  intros N. destruct x as [a|e|p].
  - split; [intros _ p H; discriminate H|intros _; exists a; reflexivity].
  - destruct (N e eq_refl).
  - split; [intros (a & H); discriminate H|intros H; destruct (H p eq_refl)].
Qed.
Lemma traverse_first {A B} (f : A -> located B) (bad : A -> place -> Prop) l p : (forall a, no_error (f a)) -> (forall a q, f a = LPanic q <-> bad a q) ->
  (ltraverse f l = LPanic p <-> first_bad bad l p).
Proof.
  intros N H. rewrite traverse_panic. unfold first_bad.
  split; intros (pre & x & post & E & F & Q); exists pre, x, post; (split; [exact E|]); (split; [|apply H, Q]).
  - intros y q I Bq. apply F in I as (b & Hb). apply H in Bq. congruence.
  - intros y I. apply fine_iff; [apply N|]. intros q Hq. apply (F y q I), H, Hq.
Qed.
Lemma text_iff v : text v <-> exists s, as_str v = Some s.
Proof. split; [intros (s & ->); exists s; reflexivity|]. intros (s & H). destruct v; try discriminate H. exists s0. reflexivity. Qed.
Lemma no_text v : ~ text v <-> as_str v = None.
Proof. rewrite text_iff. destruct (as_str v) as [s|]; split; intros H; [destruct H; exists s; reflexivity|discriminate H|reflexivity|intros (s & E); discriminate E]. Qed.
Lemma is_text v s : as_str v = Some s <-> v = YStr s.
Proof. destruct v; cbn; split; intros H; try discriminate H; injection H as ->; reflexivity. Qed.
Lemma first_none s : first_char s = None <-> s = [].
Proof. destruct s; cbn; split; intros H; try discriminate H; reflexivity. Qed.
Lemma no_mapping v : ~ mapping v <-> as_mapping v = None.
Proof. unfold mapping. destruct v; cbn; split; intros H; try reflexivity; try (intros (x & E); discriminate E); try discriminate H. destruct H. eexists; reflexivity. Qed.
Lemma no_sequence v : ~ sequence v <-> as_sequence v = None.
Proof. unfold sequence. destruct v; cbn; split; intros H; try reflexivity; try (intros (x & E); discriminate E); try discriminate H. destruct H. eexists; reflexivity. Qed.
Lemma no_text_str s : ~ (~ text (YStr s)).
Proof. intros H. apply H. exists s. reflexivity. Qed.

(** ** The items of a YAML file *)
Lemma element_bad key v p : lbind (unwrap_at items_element_not_text (as_str v)) (fun f => lbind (unwrap_at items_list_key_not_text (as_str key)) (fun t => LOk (Item f t))) = LPanic p <->
  (~ text v /\ p = items_element_not_text) \/ (text v /\ ~ text key /\ p = items_list_key_not_text).
Proof.
  rewrite !no_text, text_iff. destruct (as_str v) as [f|] eqn:E; cbn [unwrap_at lbind].
  - destruct (as_str key) as [t|]; cbn [unwrap_at lbind].
    + split; [discriminate|]. intros [[H _]|(_ & H & _)]; discriminate H.
    + split; [intros H; injection H as <-; right; repeat split; exists f; reflexivity|]. intros [[H _]|(_ & _ & ->)]; [discriminate H|reflexivity].
  - split; [intros H; injection H as <-; left; auto|]. intros [[_ ->]|((s & H) & _)]; [reflexivity|discriminate H].
Qed.
Lemma entry_bad kv p : yaml_entry_items_at kv = LPanic p <-> item_bad kv p.
Proof.
  destruct kv as [key value]. unfold yaml_entry_items_at. destruct (is_sequence value) eqn:S.
  - destruct value as [| | | |l|]; try discriminate S. cbn [as_sequence unwrap_at lbind]. clear S. rewrite traverse_panic. split.
    + intros (pre & v & post & -> & F & Q). apply element_bad in Q as [[N ->]|(T & N & ->)].
      * apply ib_element; [|exact N|].
        -- apply Forall_forall. intros y I. apply F in I as (b & Hb). apply text_iff. destruct (as_str y); [eexists; reflexivity|discriminate Hb].
        -- destruct pre as [|y pre]; [left; reflexivity|]. right. destruct (F y (or_introl eq_refl)) as (b & Hb). apply text_iff. destruct (as_str y); [|discriminate Hb]. cbn [unwrap_at lbind] in Hb.
           destruct (as_str key); [eexists; reflexivity|discriminate Hb].
      * destruct pre as [|y pre]; [apply ib_list_key; assumption|]. exfalso. apply N. destruct (F y (or_introl eq_refl)) as (b & Hb). apply text_iff. destruct (as_str y); [|discriminate Hb].
        cbn [unwrap_at lbind] in Hb. destruct (as_str key); [eexists; reflexivity|discriminate Hb].
    + intros H. inversion H as [? pre v post Fp N D|? v post T N|? ? Sq N|? ? T N]; subst.
      * exists pre, v, post. split; [reflexivity|]. split; [|apply element_bad; left; auto]. intros y I. rewrite Forall_forall in Fp. destruct D as [->|(t & ->)]; [destruct I|].
        destruct (Fp y I) as (s & ->). eexists. reflexivity.
      * exists [], v, post. split; [reflexivity|]. split; [intros y []|]. apply element_bad. right. auto.
      * destruct Sq. eexists; reflexivity.
      * destruct T as (s & T). discriminate T.
  - split.
    + intros H. destruct (as_str value) as [s|] eqn:E.
      * cbn [unwrap_at lbind] in H. destruct (as_str key) eqn:K; [discriminate H|]. cbn [unwrap_at lbind] in H. injection H as <-. apply ib_key; [apply text_iff; eauto|apply no_text, K].
      * cbn [unwrap_at lbind] in H. injection H as <-. apply ib_value; [|apply no_text, E]. intros (l & ->). discriminate S.
    + intros H. inversion H as [? pre v post Fp N D|? v post T N|? ? Sq N|? ? T N]; subst; try discriminate S.
      * apply no_text in N. rewrite N. reflexivity.
      * apply no_text in N. apply text_iff in T as (s & ->). rewrite N. reflexivity.
Qed.
Lemma entry_no_error kv : no_error (yaml_entry_items_at kv).
Proof. destruct kv as [key value]. unfold yaml_entry_items_at. destruct (is_sequence value); ne. Qed.
Lemma key_det data k v v' : key_value data k v -> key_value data k v' -> v = v'.
Proof. intros H H'. apply yget_iff in H, H'. congruence. Qed.
Lemma items_bad_iff data p : yaml_items_at data = LPanic p <-> items_bad data p.
Proof.
  unfold yaml_items_at, items_bad. destruct (yget (lit "items") data) as [m|] eqn:E.
  - apply yget_iff in E. rewrite bind_panic, unwrap_panic. split.
    + intros [[N ->]|(l & M & H)]; exists m; (split; [exact E|]).
      * left. split; [apply no_mapping, N|reflexivity].
      * right. apply unwrap_fine in M. exists l. split; [destruct m; try discriminate M; injection M as ->; reflexivity|].
        apply bind_panic in H as [H|(x & _ & H)]; [|discriminate H]. apply (traverse_first _ _ _ _ entry_no_error entry_bad), H.
    + intros (m' & K & H). rewrite (key_det _ _ _ _ E K). destruct H as [[N ->]|(l & -> & H)]; [left; split; [apply no_mapping, N|reflexivity]|]. right. exists l. split; [reflexivity|].
      apply bind_panic. left. apply (traverse_first _ _ _ _ entry_no_error entry_bad), H.
  - split; [discriminate|]. intros (m & K & _). apply yget_iff in K. congruence.
Qed.
Lemma insert_bad l m p : insert_items_at m l = LPanic p <-> first_bad side_bad l p.
Proof.
  revert m. induction l as [|[f t] l IH]; intros m; cbn [insert_items_at from to].
  - split; [discriminate|]. intros (pre & x & post & E & _). destruct pre; discriminate E.
  - destruct f as [|a f]; cbn [first_char unwrap_at lbind].
    + split; [intros H; injection H as <-; exists [], (Item [] t), l; repeat split; [intros y q []|constructor]|].
      intros (pre & x & post & E & F & Q). destruct pre as [|y pre]; injection E as <- E; [inversion Q; subst; [reflexivity|congruence]|]. destruct (F (Item [] t) item_from_empty (or_introl eq_refl)). constructor.
    + destruct t as [|b t]; cbn [first_char unwrap_at lbind].
      * split; [intros H; injection H as <-; exists [], (Item (a :: f) []), l; repeat split; [intros y q []|constructor; discriminate]|].
        intros (pre & x & post & E & F & Q). destruct pre as [|y pre]; injection E as <- E; [inversion Q; subst; reflexivity|].
        destruct (F (Item (a :: f) []) item_to_empty (or_introl eq_refl)). constructor. discriminate.
      * transitivity (first_bad side_bad l p); [apply IH|]. unfold first_bad. split.
        -- intros (pre & x & post & -> & F & Q). exists (Item (a :: f) (b :: t) :: pre), x, post. split; [reflexivity|]. split; [|exact Q]. intros y q [<-|I] S; [inversion S|exact (F y q I S)].
        -- intros (pre & x & post & E & F & Q). destruct pre as [|y pre]; injection E as <- E; [inversion Q|]. exists pre, x, post. split; [exact E|]. split; [|exact Q]. intros z q I. apply F. right. exact I.
Qed.

(** ** The modifiers of a YAML file *)
Lemma conversion_bad_iff kv p :
  lbind (unwrap_at converter_key_not_text (as_str (fst kv))) (fun k => lbind (unwrap_at converter_key_empty (first_char k)) (fun k =>
  lbind (unwrap_at converter_value_not_text (as_str (snd kv))) (fun x => lbind (unwrap_at converter_value_empty (first_char x)) (fun x => LOk (k, x))))) = LPanic p <-> conversion_bad kv p.
Proof.
  destruct kv as [k v]. cbn [fst snd]. split.
  - intros H. destruct (as_str k) as [s|] eqn:K; cbn [unwrap_at lbind] in H; [|injection H as <-; apply cb_key, no_text, K]. apply is_text in K. subst k.
    destruct s as [|a s]; cbn [first_char unwrap_at lbind] in H; [injection H as <-; apply cb_key_empty; reflexivity|].
    assert (T : text (YStr (a :: s))) by (eexists; reflexivity). assert (N : ~ empty_text (YStr (a :: s))) by discriminate.
    destruct (as_str v) as [t|] eqn:E; cbn [unwrap_at lbind] in H; [|injection H as <-; apply cb_value; [exact T|exact N|apply no_text, E]]. apply is_text in E. subst v.
    destruct t as [|b t]; cbn [first_char unwrap_at lbind] in H; [injection H as <-; apply cb_value_empty; [exact T|exact N|reflexivity]|discriminate H].
  - intros H. inversion H as [? ? N|? ? Em|? ? T N N'|? ? T N Em]; subst.
    + apply no_text in N. rewrite N. reflexivity.
    + unfold empty_text in Em. subst k. reflexivity.
    + destruct T as (s & ->). destruct s as [|a s]; [destruct N; reflexivity|]. apply no_text in N'. cbn [as_str unwrap_at lbind first_char]. rewrite N'. reflexivity.
    + destruct T as (s & ->). destruct s as [|a s]; [destruct N; reflexivity|]. unfold empty_text in Em. subst v. reflexivity.
Qed.
Lemma eliminated_bad_iff v p : lbind (unwrap_at eliminator_not_text (as_str v)) (fun s => unwrap_at eliminator_empty (first_char s)) = LPanic p <-> eliminated_bad v p.
Proof.
  split.
  - intros H. destruct (as_str v) as [s|] eqn:K; cbn [unwrap_at lbind] in H; [|injection H as <-; apply eb_text, no_text, K]. apply is_text in K. subst v.
    apply unwrap_panic in H as [H ->]. apply first_none in H. subst s. apply eb_empty. reflexivity.
  - intros H. inversion H as [? N|? Em]; subst.
    + apply no_text in N. rewrite N. reflexivity.
    + unfold empty_text in Em. subst v. reflexivity.
Qed.
Lemma ligature_bad_iff kv p :
  lbind (unwrap_at ligature_key_not_text (as_str (fst kv))) (fun k => lbind (unwrap_at ligature_value_not_text (as_str (snd kv))) (fun x => LOk (k, x))) = LPanic p <-> ligature_bad kv p.
Proof.
  destruct kv as [k v]. cbn [fst snd]. split.
  - intros H. destruct (as_str k) as [s|] eqn:K; cbn [unwrap_at lbind] in H; [|injection H as <-; apply lb_key, no_text, K]. apply is_text in K. subst k.
    destruct (as_str v) as [t|] eqn:E; cbn [unwrap_at lbind] in H; [discriminate H|]. injection H as <-. apply lb_value; [eexists; reflexivity|apply no_text, E].
  - intros H. inversion H as [? ? N|? ? T N]; subst.
    + apply no_text in N. rewrite N. reflexivity.
    + destruct T as (s & ->). apply no_text in N. cbn [as_str unwrap_at lbind]. rewrite N. reflexivity.
Qed.
Lemma conv_bad v p : conv_from_yaml_at v = LPanic p <-> (~ mapping v /\ p = converter_not_mapping) \/ exists l, v = YMap l /\ first_bad conversion_bad l p.
Proof.
  unfold conv_from_yaml_at. rewrite bind_panic, unwrap_panic, no_mapping. apply or_iff_compat_l. split.
  - intros (l & M & H). apply unwrap_fine in M. destruct v; try discriminate M. injection M as ->. exists l. split; [reflexivity|].
    apply bind_panic in H as [H|(x & _ & H)]; [|discriminate H]. revert H. apply traverse_first; [intros; ne|exact conversion_bad_iff].
  - intros (l & -> & H). exists l. split; [reflexivity|]. apply bind_panic. left. revert H. apply traverse_first; [intros; ne|exact conversion_bad_iff].
Qed.
Lemma elim_bad v p : elim_from_yaml_at v = LPanic p <-> (~ sequence v /\ p = eliminator_not_sequence) \/ exists l, v = YSeq l /\ first_bad eliminated_bad l p.
Proof.
  unfold elim_from_yaml_at. rewrite bind_panic, unwrap_panic, no_sequence. apply or_iff_compat_l. split.
  - intros (l & M & H). apply unwrap_fine in M. destruct v; try discriminate M. injection M as ->. exists l. split; [reflexivity|].
    apply bind_panic in H as [H|(x & _ & H)]; [|discriminate H]. revert H. apply traverse_first; [intros; ne|exact eliminated_bad_iff].
  - intros (l & -> & H). exists l. split; [reflexivity|]. apply bind_panic. left. revert H. apply traverse_first; [intros; ne|exact eliminated_bad_iff].
Qed.
Lemma lig_bad v p : lig_from_yaml_at v = LPanic p <-> (~ mapping v /\ p = ligature_not_mapping) \/ exists l, v = YMap l /\ first_bad ligature_bad l p.
Proof.
  unfold lig_from_yaml_at. rewrite bind_panic, unwrap_panic, no_mapping. apply or_iff_compat_l. split.
  - intros (l & M & H). apply unwrap_fine in M. destruct v; try discriminate M. injection M as ->. exists l. split; [reflexivity|].
    apply bind_panic in H as [H|(x & _ & H)]; [|discriminate H]. revert H. apply traverse_first; [intros; ne|exact ligature_bad_iff].
  - intros (l & -> & H). exists l. split; [reflexivity|]. apply bind_panic. left. revert H. apply traverse_first; [intros; ne|exact ligature_bad_iff].
Qed.
Lemma red_bad v p : red_from_yaml_at v = LPanic p <-> (~ text v /\ p = reducer_not_text) \/ (empty_text v /\ p = reducer_empty).
Proof.
  unfold red_from_yaml_at, red_from_str_at. rewrite bind_panic, unwrap_panic, no_text. apply or_iff_compat_l. unfold empty_text. split.
  - intros (s & E & H). apply unwrap_fine, is_text in E. apply unwrap_panic in H as [H ->]. apply first_none in H. subst. auto.
  - intros [-> ->]. exists []. split; reflexivity.
Qed.
Opaque neologdn_new.
Lemma neo_fine o : exists n, neologdn_new_at o = LOk n.
Proof. unfold neologdn_new_at. rewrite neologdn_new_eq. eexists. reflexivity. Qed.
Lemma eqb_neq a b : str_eqb a b = false -> a <> b.
Proof. intros H ->. rewrite str_eqb_refl in H. discriminate H. Qed.
Ltac names s := let tac n := (let E := fresh "E" in destruct (str_eqb s n) eqn:E; [apply str_eqb_eq in E|apply eqb_neq in E]) in
  tac (lit "character_converter"); [|tac (lit "character_eliminator"); [|tac (lit "consecutive_character_reducer"); [|tac (lit "ligature_translator"); [|tac (lit "dotted_space_eliminator"); [|tac (lit "trim"); [|tac (lit "neologdn")]]]]]].
Lemma bad_key v s p : modifier_bad (YStr s, v) p ->
  (s = lit "character_converter" /\ conv_from_yaml_at v = LPanic p) \/ (s = lit "character_eliminator" /\ elim_from_yaml_at v = LPanic p) \/
  (s = lit "consecutive_character_reducer" /\ red_from_yaml_at v = LPanic p) \/ (s = lit "ligature_translator" /\ lig_from_yaml_at v = LPanic p).
Proof.
  intros H. remember (YStr s, v) as kv eqn:E. destruct H as [k v' N|v' N|l q F|v' N|l q F|v' N|v' Em|v' N|l q F]; injection E as E1 E2; subst; try (injection E1 as <-).
  - destruct (no_text_str s N).
  - left. split; [reflexivity|]. apply conv_bad. left. auto.
  - left. split; [reflexivity|]. apply conv_bad. right. eauto.
  - right. left. split; [reflexivity|]. apply elim_bad. left. auto.
  - right. left. split; [reflexivity|]. apply elim_bad. right. eauto.
  - right. right. left. split; [reflexivity|]. apply red_bad. left. auto.
  - right. right. left. split; [reflexivity|]. apply red_bad. right. auto.
  - right. right. right. split; [reflexivity|]. apply lig_bad. left. auto.
  - right. right. right. split; [reflexivity|]. apply lig_bad. right. eauto.
Qed.
Lemma ok_after {A B} (x : located A) (f : A -> B) p : lbind x (fun a => LOk (f a)) = LPanic p <-> x = LPanic p.
Proof. rewrite bind_panic. split; [intros [H|(a & _ & H)]; [exact H|discriminate H]|auto]. Qed.
Lemma modifier_bad_iff o k v p : modifier_from_yaml_at o k v = LPanic p <-> modifier_bad (k, v) p.
Proof.
  unfold modifier_from_yaml_at. destruct (as_str k) as [s|] eqn:K; cbn [unwrap_at lbind].
  2: { apply no_text in K. split; [intros H; injection H as <-; apply mb_key, K|]. intros H. remember (k, v) as kv eqn:E.
       destruct H as [k' v' N|v' N|l q F|v' N|l q F|v' N|v' Em|v' N|l q F]; injection E as E1 E2; subst; [reflexivity|destruct (no_text_str _ K)..]. }
  apply is_text in K. subst k. split.
  - names s; intros H.
    + subst s. apply ok_after, conv_bad in H as [[N ->]|(l & -> & F)]; [apply mb_conv, N|apply mb_conv_entry, F].
    + subst s. apply ok_after, elim_bad in H as [[N ->]|(l & -> & F)]; [apply mb_elim, N|apply mb_elim_entry, F].
    + subst s. apply ok_after, red_bad in H as [[N ->]|[Em ->]]; [apply mb_red, N|apply mb_red_empty, Em].
    + subst s. apply ok_after, lig_bad in H as [[N ->]|(l & -> & F)]; [apply mb_lig, N|apply mb_lig_entry, F].
    + unfold null_only_at in H. destruct (is_null v); discriminate H.
    + unfold null_only_at in H. destruct (is_null v); discriminate H.
    + unfold null_only_at in H. destruct (neo_fine o) as (n & Q). rewrite Q in H. destruct (is_null v); discriminate H.
    + discriminate H.
  - intros H. apply bad_key in H as [[-> H]|[[-> H]|[[-> H]|[-> H]]]].
    + change (str_eqb (lit "character_converter") (lit "character_converter")) with true. cbn iota. apply ok_after, H.
    + change (str_eqb (lit "character_eliminator") (lit "character_converter")) with false. change (str_eqb (lit "character_eliminator") (lit "character_eliminator")) with true. cbn iota. apply ok_after, H.
    + change (str_eqb (lit "consecutive_character_reducer") (lit "character_converter")) with false. change (str_eqb (lit "consecutive_character_reducer") (lit "character_eliminator")) with false.
      change (str_eqb (lit "consecutive_character_reducer") (lit "consecutive_character_reducer")) with true. cbn iota. apply ok_after, H.
    + change (str_eqb (lit "ligature_translator") (lit "character_converter")) with false. change (str_eqb (lit "ligature_translator") (lit "character_eliminator")) with false.
      change (str_eqb (lit "ligature_translator") (lit "consecutive_character_reducer")) with false. change (str_eqb (lit "ligature_translator") (lit "ligature_translator")) with true. cbn iota. apply ok_after, H.
Qed.
Lemma ok_error {A B} (x : located A) (f : A -> B) e : no_error x -> lbind x (fun a => LOk (f a)) <> LErr e.
Proof. intros N. destruct x as [a|e'|p]; cbn [lbind]; [discriminate|destruct (N e' eq_refl)|discriminate]. Qed.
Lemma null_iff v : is_null v = false <-> v <> YNull.
Proof. destruct v; cbn; split; intros H; try discriminate; try reflexivity; congruence. Qed.
Lemma modifier_refused_iff o k v : (exists e, modifier_from_yaml_at o k v = LErr e) <-> modifier_refused (k, v).
Proof.
  unfold modifier_from_yaml_at. destruct (as_str k) as [s|] eqn:K; cbn [unwrap_at lbind].
  2: { split; [intros (e & H); discriminate H|]. intros H. inversion H; subst; discriminate K. }
  apply is_text in K. subst k.
  assert (NC : no_error (conv_from_yaml_at v)) by (unfold conv_from_yaml_at; ne). assert (NE : no_error (elim_from_yaml_at v)) by (unfold elim_from_yaml_at; ne).
  assert (NR : no_error (red_from_yaml_at v)) by (unfold red_from_yaml_at; ne). assert (NL : no_error (lig_from_yaml_at v)) by (unfold lig_from_yaml_at; ne).
  assert (W : forall n, In n without_value -> ~ In n with_value).
  { intros n I J. unfold without_value, with_value in I, J. repeat destruct I as [<-|I]; repeat destruct J as [J|J]; try discriminate J; contradiction. }
  assert (V : In s with_value -> ~ modifier_refused (YStr s, v)).
  { intros I H. inversion H as [? ? A B|? ? A B]; subst; [contradiction|exact (W _ A I)]. }
  assert (Z : In s without_value -> (modifier_refused (YStr s, v) <-> is_null v = false)).
  { intros I. rewrite null_iff. split; [intros H; inversion H; subst; [contradiction|assumption]|]. intros N. apply mr_value; assumption. }
  names s.
  - split; [intros (e & H); destruct (ok_error _ _ _ NC H)|intros H; destruct V; [subst s; cbn; auto|exact H]].
  - split; [intros (e & H); destruct (ok_error _ _ _ NE H)|intros H; destruct V; [subst s; cbn; auto|exact H]].
  - split; [intros (e & H); destruct (ok_error _ _ _ NR H)|intros H; destruct V; [subst s; cbn; auto|exact H]].
  - split; [intros (e & H); destruct (ok_error _ _ _ NL H)|intros H; destruct V; [subst s; cbn; auto 6|exact H]].
  - rewrite Z by (subst s; cbn; auto). unfold null_only_at. destruct (is_null v); split; intros H; [destruct H as (e & H); discriminate H|discriminate H|reflexivity|eexists; reflexivity].
  - rewrite Z by (subst s; cbn; auto). unfold null_only_at. destruct (is_null v); split; intros H; [destruct H as (e & H); discriminate H|discriminate H|reflexivity|eexists; reflexivity].
  - rewrite Z by (subst s; cbn; auto). unfold null_only_at. destruct (neo_fine o) as (n & Q). rewrite Q.
    destruct (is_null v); split; intros H; [destruct H as (e & H); discriminate H|discriminate H|reflexivity|eexists; reflexivity].
  - split; [intros _|intros _; eexists; reflexivity]. apply mr_unknown; unfold without_value, with_value; intros I; repeat destruct I as [I|I]; try contradiction; congruence.
Qed.
Lemma modifier_loads o k v : (exists m, modifier_from_yaml_at o k v = LOk m) <-> ~ modifier_refused (k, v) /\ forall q, ~ modifier_bad (k, v) q.
Proof.
  split.
  - intros (m & H). split; [intros R; apply (modifier_refused_iff o) in R as (e & R); congruence|]. intros q B. apply (modifier_bad_iff o) in B. congruence.
  - intros [R B]. destruct (modifier_from_yaml_at o k v) as [m|e|p] eqn:E; [eauto|destruct R; apply (modifier_refused_iff o); eauto|destruct (B p); apply (modifier_bad_iff o); exact E].
Qed.
Lemma modifiers_bad_from o l i p : yaml_modifiers_at o i l = LPanic p <->
  exists pre x post, l = pre ++ x :: post /\ (forall y, In y pre -> ~ modifier_refused y /\ forall q, ~ modifier_bad y q) /\ modifier_bad x p.
Proof.
  revert i. induction l as [|[k v] l IH]; intros i; cbn [yaml_modifiers_at].
  - split; [discriminate|]. intros (pre & x & post & E & _). destruct pre; discriminate E.
  - rewrite bind_panic. split.
    + intros [H|(m & H & G)]; [exists [], (k, v), l; split; [reflexivity|]; split; [intros y []|apply (modifier_bad_iff (sub o i)), H]|]. apply bind_panic in G as [G|(ms & _ & G)]; [|discriminate G].
      apply IH in G as (pre & x & post & -> & F & Q). exists ((k, v) :: pre), x, post. split; [reflexivity|]. split; [|exact Q]. intros y [<-|I]; [apply (modifier_loads (sub o i)); eauto|apply F, I].
    + intros (pre & x & post & E & F & Q). destruct pre as [|y pre]; cbn [app] in E; injection E as <- ->; [left; apply modifier_bad_iff, Q|].
      right. destruct (proj2 (modifier_loads (sub o i) k v) (F _ (or_introl eq_refl))) as (m & Hm). exists m. split; [exact Hm|]. apply bind_panic. left. apply IH. exists pre, x, post. split; [reflexivity|]. split; [|exact Q].
      intros z I. apply F. right. exact I.
Qed.
Lemma modifiers_bad_iff o data p : modifiers_of_yaml_at o data = LPanic p <-> modifiers_bad data p.
Proof.
  unfold modifiers_of_yaml_at, modifiers_bad. destruct (yget (lit "modifiers") data) as [m|] eqn:E.
  - apply yget_iff in E. rewrite bind_panic, unwrap_panic. split.
    + intros [[N ->]|(l & M & H)]; exists m; (split; [exact E|]).
      * left. split; [apply no_mapping, N|reflexivity].
      * right. apply unwrap_fine in M. destruct m; try discriminate M. injection M as ->. apply modifiers_bad_from in H as (pre & x & post & -> & F & Q). exists pre, x, post. auto.
    + intros (m' & K & H). rewrite (key_det _ _ _ _ E K). destruct H as [[N ->]|(pre & x & post & -> & F & Q)]; [left; split; [apply no_mapping, N|reflexivity]|]. right. eexists. split; [reflexivity|].
      apply modifiers_bad_from. exists pre, x, post. auto.
  - split; [discriminate|]. intros (m & K & _). apply yget_iff in K. congruence.
Qed.
