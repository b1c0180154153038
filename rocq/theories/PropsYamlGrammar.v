(** Property C91: configuration files as text. *)
From Coq Require Import String.
From Verif Require Import Base BaseFacts StrOps Corr Table Charset Position Converter Eliminator Reducer Dotted Ligature TrimMod Neologdn ModifierKind KindEq ChanomaModel PathModel Yaml File Configuration
  YamlText ParseProps Spec FileSpec ConfigSpec PathSpec CorrFacts CorrProps FileProps ConfigProps PathProps PropsConverter PropsPipeline PropsFile PropsConfig
  YamlTextFacts YamlSpec YamlScalars YamlSound YamlComplete PropsYamlText PropsEq PropsDescribe.
Local Open Scope string_scope.
Local Open Scope list_scope.

(** ** C91 *)
(** The reader reads these texts and no others, as the values they stand for. *)
Theorem C91_reader : forall t v, read_document t = Some v <-> document_text t v.
Proof. exact read_document_iff. Qed.
Print Assumptions C91_reader.
(** A text stands for one value, and it can be found out which, if any. *)
Theorem C91_reads : forall t, (exists v, document_text t v /\ forall v', document_text t v' -> v' = v) \/ forall v, ~ document_text t v.
Proof.
  intros t. destruct (read_document t) as [v|] eqn:E.
  - left. exists v. split; [apply read_sound, E|]. intros v' H. apply document_read in H. congruence.
  - right. intros v H. apply document_read in H. congruence.
Qed.
Print Assumptions C91_reads.

(** What a document describes, it describes once. *)
Lemma key_value_same data k v v' : key_value data k v -> key_value data k v' -> v = v'.
Proof. intros H H'. apply yget_iff in H, H'. congruence. Qed.
Lemma map_inj {A B} (f : A -> B) : (forall x y, f x = f y -> x = y) -> forall l l', map f l = map f l' -> l = l'.
Proof.
  intros I. induction l as [|x l IH]; intros [|y l'] H; try discriminate H; [reflexivity|]. injection H as E H. f_equal; auto.
Qed.
Lemma entry_effect_same kv e e' : entry_effect kv e -> entry_effect kv e' -> forall s out, e s out <-> e' s out.
Proof.
  intros H H'. destruct H; inversion H'; subst; try discriminate; try tauto;
    match goal with Q : map _ _ = map _ _ |- _ => apply map_inj in Q; [subst; tauto|] end.
  - intros [a b] [a' b'] Q. cbn in Q. injection Q as -> ->. reflexivity.
  - intros a b Q. injection Q as ->. reflexivity.
  - intros [a b] [a' b'] Q. cbn in Q. injection Q as -> ->. reflexivity.
Qed.
Lemma modifiers_same data effs effs' : modifiers_described data effs -> modifiers_described data effs' -> forall s out, in_sequence effs s out <-> in_sequence effs' s out.
Proof.
  intros [[N ->]|(l & K & F)] [[N' ->]|(l' & K' & F')]; try tauto; [destruct (N _ K')|destruct (N' _ K)|].
  assert (E : YMap l = YMap l') by (eapply key_value_same; eassumption). injection E as <-. clear K K' data. revert effs' F'.
  induction F as [|kv e l effs H F IH]; intros effs' F'; inversion F' as [|? e' ? effs2 H' F2]; subst; intros s out; [tauto|]. cbn [in_sequence].
  split; intros (mid & A & B); exists mid; (split; [apply (entry_effect_same kv e e' H H'), A|apply (IH effs2 F2), B]).
Qed.
Lemma items_same data items items' : items_described data items -> items_described data items' -> items' = items.
Proof.
  intros H H'. pose (w := yaml_world data). assert (A : file_items w ex_path Yaml items) by (exists data; auto). assert (B : file_items w ex_path Yaml items') by (exists data; auto).
  apply load_table_iff in A, B. rewrite A in B. injection B as ->. reflexivity.
Qed.
(** A text that describes items and modifiers loads, and does what it describes. *)
Theorem C91_effect : forall t data items effs o w p, document_text t data -> items_described data items -> no_empty_string items -> modifiers_described data effs ->
  is_yaml p -> yaml_file w p t ->
  exists c, from_config_file o w p = Ok c /\ forall s out, result c s out <-> exists mid, in_sequence effs s mid /\ pointwise (last_match items) mid out.
Proof.
  intros t data items effs o w p D I N M X F. pose proof (F data D) as W.
  pose proof (fe_yaml w p data items effs X W I N M) as E. destruct (C44_if o w p _ E) as (c & L). exists c. split; [exact L|]. intros s out.
  destruct (C44_ok o w p c L) as (_ & e & E' & R). rewrite R. clear R E L. destruct E' as [recs rows its X' _ _ _ _ _|data' items' effs' _ W' I' N' M'].
  - destruct (proj1 (ext_csv_iff p) (proj2 (ext_csv_iff p) X')). apply ext_yaml_iff in X. apply ext_csv_iff in X'. rewrite X in X'. discriminate X'.
  - assert (data' = data) by congruence. subst data'. rewrite (items_same data items items' I I'). 
    split; intros (mid & A & B); exists mid; (split; [apply (modifiers_same data effs effs' M M'), A|exact B]).
Qed.
Print Assumptions C91_effect.
(** Only the value counts: quotes, escapes, flow or block form, indentation, comments, blank lines make no difference. *)
Theorem C91_layout_irrelevant : forall t t' v o w w' p, document_text t v -> document_text t' v -> is_yaml p -> yaml_file w p t -> yaml_file w' p t' ->
  from_config_file o w p = from_config_file o w' p.
Proof.
  intros t t' v o w w' p D D' X F F'. pose proof (F v D) as W. pose proof (F' v D') as W'. apply ext_yaml_iff in X.
  unfold from_config_file, configuration_from_path, load_file_with_ext. rewrite X. cbn [bind].
  unfold load_items_to_character_converter, load_modifiers, table_from_yaml_path, modifiers_from_yaml_path, read_yaml. rewrite W, W'. reflexivity.
Qed.
Print Assumptions C91_layout_irrelevant.

(** ** Every value can be written *)
Lemma hex_digit n : n < 16 -> exists d, hex d n.
Proof. intros H. do 16 (destruct n as [|n]; [eexists; left; reflexivity|]). lia. Qed.
Lemma quotable_dec c : quotable c \/ (~ quotable c /\ (c < 0xFFFF)%N).
Proof.
  unfold quotable, shown. destruct (N.eq_dec c 0x22), (N.eq_dec c 0x5C), (N.eq_dec c 0x2028), (N.eq_dec c 0x2029), (N.eq_dec c 0xFEFF), (N.le_gt_cases 0x20 c), (N.le_gt_cases c 0x7E), (N.le_gt_cases 0xA0 c); lia.
Qed.
Lemma quote s : exists b, quoted b s /\ List.length b <= 6 * List.length s.
Proof.
  induction s as [|c s (b & Q & L)]; [exists []; split; [constructor|cbn; lia]|]. destruct (quotable_dec c) as [H|[H B]].
  - exists (c :: b). split; [constructor; assumption|]. cbn [List.length]. lia.
  - assert (U : (c < 0xD800 \/ 0xE000 <= c)%N) by (unfold quotable, shown in H; lia).
    set (n := N.to_nat c). assert (Hn : (N.of_nat n = c)%N) by apply N2Nat.id. assert (Bn : n < 16 * 4096) by (unfold n; unfold char in *; lia).
    set (n1 := n / 4096). set (r1 := n mod 4096). set (n2 := r1 / 256). set (r2 := r1 mod 256). set (n3 := r2 / 16). set (n4 := r2 mod 16).
    pose proof (Nat.div_mod n 4096 ltac:(lia)) as D1. pose proof (Nat.div_mod r1 256 ltac:(lia)) as D2. pose proof (Nat.div_mod r2 16 ltac:(lia)) as D3.
    pose proof (Nat.mod_upper_bound n 4096 ltac:(lia)) as M1. pose proof (Nat.mod_upper_bound r1 256 ltac:(lia)) as M2. pose proof (Nat.mod_upper_bound r2 16 ltac:(lia)) as M3.
    fold n1 r1 in D1, M1. fold n2 r2 in D2, M2. fold n3 n4 in D3, M3. clearbody n1 r1 n2 r2 n3 n4.
    destruct (hex_digit n1) as (d1 & H1); [lia|]. destruct (hex_digit n2) as (d2 & H2); [lia|]. destruct (hex_digit n3) as (d3 & H3); [lia|]. destruct (hex_digit n4) as (d4 & H4); [lia|].
    exists (lit "\u" ++ [d1; d2; d3; d4] ++ b). split.
    + apply (q_code c d1 d2 d3 d4 n1 n2 n3 n4); auto. rewrite <- Hn. f_equal. lia.
    + rewrite !app_length. change (List.length (lit "\u")) with 2. cbn [List.length]. lia.
Qed.
Lemma text_key s : List.length s <= 150 -> exists t, key_is t (YStr s).
Proof.
  intros L. destruct (quote s) as (b & Q & B). exists ([0x22%N] ++ b ++ [0x22%N]). split; [apply sc_text; left; exists b; auto|]. rewrite !app_length. cbn [List.length]. unfold char in *. lia.
Qed.
(** Values that can be written: the keys of their mappings are texts of at most 150 characters, and at most one number, truth value or nothing. *)
Definition short_key (k : yval) : Prop := match k with YStr s => List.length s <= 150 | YSeq _ | YMap _ => False | _ => True end.
Inductive writable : yval -> Prop :=
| wr_null : writable YNull
| wr_bool : writable YBool
| wr_num : writable YNum
| wr_str s : writable (YStr s)
| wr_seq l : Forall writable l -> writable (YSeq l)
| wr_map l : apart (map fst l) -> Forall (fun kv => short_key (fst kv) /\ writable (snd kv)) l -> writable (YMap l).
Lemma scalar_text s : exists t, scalar_is t (YStr s).
Proof. destruct (quote s) as (b & Q & _). eexists. apply sc_text. left. exists b. auto. Qed.
Lemma key_for k : short_key k -> exists t, key_is t k.
Proof.
  destruct k as [| | |s|l|l]; intros H; try contradiction.
  - exists (lit "~"). split; [apply sc_null; auto|apply Nat.ltb_lt; reflexivity].
  - exists (lit "true"). split; [apply sc_bool; auto|apply Nat.ltb_lt; reflexivity].
  - exists (lit "1"). split; [|apply Nat.ltb_lt; reflexivity]. apply sc_number; [|apply Nat.leb_le; reflexivity].
    exists [], (lit "1"), []. split; [reflexivity|]. split; [auto|]. split; [discriminate|]. split; [constructor; [split; vm_compute; discriminate|constructor]|]. split; [discriminate|auto].
  - apply text_key, H.
Qed.
Lemma writable_block : forall v, writable v -> forall n, exists t child, block n ((n, t) :: child) v.
Proof.
  fix IH 1. intros v H n. destruct v as [| | |s|l|l].
  - exists (lit "~"), []. apply b_inline, in_scalar, sc_null. auto.
  - exists (lit "true"), []. apply b_inline, in_scalar, sc_bool. auto.
  - destruct (key_for YNum I) as (t & T & _). exists t, []. apply b_inline, in_scalar, T.
  - destruct (scalar_text s) as (t & T). exists t, []. apply b_inline, in_scalar, T.
  - assert (F : Forall writable l) by (inversion H; assumption). clear H.
    assert (E : (exists ls, elements n ls l) /\ (l <> [] -> exists t child, elements n ((n, t) :: child) l)).
    { induction l as [|v l IHl]; [split; [exists []; constructor|intros Q; destruct Q; reflexivity]|].
      assert (Fv : writable v) by (inversion F; assumption). assert (Fl : Forall writable l) by (inversion F; assumption). destruct (IHl Fl) as ((ls & E) & _).
      destruct (IH v Fv (n + 2)) as (t & child & B). assert (X : elements n ((n, lit "- " ++ spaces 0 ++ t) :: child ++ ls) (v :: l)) by (apply e_cons; assumption). split; [eauto|]. intros _. eauto. }
    destruct l as [|v l]; [exists (lit "[]"), []; apply b_inline, (in_no_seq 0)|]. destruct (proj2 E) as (t & child & Q); [discriminate|].
    exists t, child. apply b_seq; [discriminate|exact Q].
  - assert (F : apart (map fst l) /\ Forall (fun kv => short_key (fst kv) /\ writable (snd kv)) l) by (inversion H; auto). clear H. destruct F as [A F].
    assert (E : (exists ls, pairs n ls l) /\ (l <> [] -> exists t child, pairs n ((n, t) :: child) l)).
    { clear A. induction l as [|[k v] l IHl]; [split; [exists []; constructor|intros Q; destruct Q; reflexivity]|].
      assert (Fv : writable v) by (inversion F as [|? ? [_ Q] _]; exact Q). assert (Fk : short_key k) by (inversion F as [|? ? [Q _] _]; exact Q).
      assert (Fl : Forall (fun kv => short_key (fst kv) /\ writable (snd kv)) l) by (inversion F; assumption). destruct (IHl Fl) as ((ls & E) & _).
      destruct (IH v Fv (n + 2)) as (t & child & B). destruct (key_for k Fk) as (K & Hk).
      assert (X : pairs n ((n, K ++ lit ":") :: ((n + 2, t) :: child) ++ ls) ((k, v) :: l)) by (apply p_block with (m := n + 2); [exact Hk|lia|exact B|exact E]). split; [eauto|]. intros _. eauto. }
    destruct l as [|kv l]; [exists (lit "{}"), []; apply b_inline, (in_no_map 0)|]. destruct (proj2 E) as (t & child & Q); [discriminate|].
    exists t, child. apply b_map; [discriminate|exact A|exact Q].
Qed.
Lemma plain_tail : line_tail [].
Proof. apply (lt_spaces 0 []). left. reflexivity. Qed.
Lemma layout_of ls : layout ls (map (fun l : nat * str => spaces (fst l) ++ snd l ++ []) ls).
Proof. induction ls as [|[n s] ls IH]; cbn [map fst snd]; constructor; [exact plain_tail|exact IH]. Qed.
Theorem C91_every_value : forall v, writable v -> nested 100 v -> exists t, document_text t v.
Proof.
  intros v H N. destruct (writable_block v H 0) as (t & child & B). eexists. exists ((0, t) :: child). eexists. split; [exact N|]. split; [exists 0; exact B|]. split; [left; apply layout_of|reflexivity].
Qed.
Print Assumptions C91_every_value.
(** Every pipeline of different kinds of modifiers and a converter after them is what some text loads as; ligatures are at most 150 characters long. *)
Definition short_ligatures (m : modifier) : Prop := match m with MLig l => Forall (fun kv => List.length (fst kv) <= 150) l | _ => True end.
Lemma apart_via {A} (f : A -> str) l : NoDup (map f l) -> apart (map (fun x => YStr (f x)) l).
Proof. intros N. unfold apart. rewrite map_map. cbn [key_text]. apply (nodup_map_via f (@Some str)); [intros x y E; injection E as ->; reflexivity|exact N]. Qed.
Lemma document_writable ms cc : Forall proper ms -> Forall short_ligatures ms -> NoDup (map kind_name ms) -> writable (document ms cc).
Proof.
  intros P Sh N. apply wr_map; [unfold apart; cbn; constructor; [intros [E|[]]; discriminate|constructor; [intros []|constructor]]|].
  constructor; [|constructor; [|constructor]]; cbn [fst snd]; (split; [apply Nat.leb_le; reflexivity|]); apply wr_map.
  - rewrite map_map. apply (apart_via kind_name), N.
  - apply Forall_forall. intros kv I. apply in_map_iff in I as (m & <- & I). rewrite Forall_forall in P, Sh. specialize (P m I). specialize (Sh m I). cbn [entry_for fst snd].
    split; [destruct m; apply Nat.leb_le; reflexivity|]. destruct m as [cv|el|c| |l| |n]; cbn [value_for proper short_ligatures] in *; try constructor.
    + rewrite map_map. apply (apart_via (fun kv : char * char => [fst kv])). apply (nodup_map_via fst (fun c : char => [c])); [intros x y E; injection E as ->; reflexivity|exact P].
    + apply Forall_forall. intros kv J. apply in_map_iff in J as (x & <- & _). split; [apply Nat.leb_le; reflexivity|apply wr_str].
    + apply Forall_forall. intros v J. apply in_map_iff in J as (x & <- & _). apply wr_str.
    + rewrite map_map. apply (apart_via fst), P.
    + apply Forall_forall. intros kv J. apply in_map_iff in J as (x & <- & J). rewrite Forall_forall in Sh. split; [exact (Sh x J)|apply wr_str].
  - rewrite map_map. apply (apart_via fst). apply ordered_nodup, C38_lemma.
  - apply Forall_forall. intros kv I. apply in_map_iff in I as ([k vs] & <- & I). cbn [fst snd]. split.
    + apply (proj1 (proj2 (C38_lemma (items_for cc)))) in I as [E Ne]. cbn [short_key].
      assert (X : exists it, In it (items_for cc) /\ to it = k).
      { destruct (filter (fun it => if str_eq_dec (to it) k then true else false) (items_for cc)) as [|it l] eqn:F; [subst vs; destruct Ne; reflexivity|].
        assert (J : In it (filter (fun it => if str_eq_dec (to it) k then true else false) (items_for cc))) by (rewrite F; left; reflexivity).
        apply filter_In in J as [J T]. destruct (str_eq_dec (to it) k); [eauto|discriminate T]. }
      destruct X as (it & J & <-). unfold items_for in J. apply in_map_iff in J as (x & <- & _). apply Nat.leb_le. reflexivity.
    + apply wr_seq. apply Forall_forall. intros v J. apply in_map_iff in J as (x & <- & _). apply wr_str.
Qed.
Lemma scalar_nested d v : (match v with YSeq _ | YMap _ => False | _ => True end) -> nested d v.
Proof. intros H. destruct v; try contradiction; apply ns_scalar; discriminate. Qed.
Lemma document_nested ms cc : nested 100 (document ms cc).
Proof.
  apply ns_map. apply Forall_cons; [|apply Forall_cons; [|apply Forall_nil]]; cbn [snd]; apply ns_map; apply Forall_forall; intros kv I; apply in_map_iff in I as (m & <- & I); cbn [entry_for snd].
  - destruct m as [cv|el|c| |l| |n]; cbn [value_for]; try (apply scalar_nested; exact Logic.I).
    + apply ns_map. apply Forall_forall. intros x J. apply in_map_iff in J as (y & <- & _). apply scalar_nested. exact Logic.I.
    + apply ns_seq. apply Forall_forall. intros x J. apply in_map_iff in J as (y & <- & _). apply scalar_nested. exact Logic.I.
    + apply ns_map. apply Forall_forall. intros x J. apply in_map_iff in J as (y & <- & _). apply scalar_nested. exact Logic.I.
  - apply ns_seq. apply Forall_forall. intros x J. apply in_map_iff in J as (y & <- & _). apply scalar_nested. exact Logic.I.
Qed.
Theorem C91_every_pipeline : forall c, Forall proper c -> yaml_shape c -> Forall short_ligatures c ->
  exists t, (exists data, document_text t data) /\ forall o w p, is_yaml p -> yaml_file w p t -> exists c', from_config_file o w p = Ok c' /\ Forall2 same_contents c' c.
Proof.
  intros c P (ms & cc & -> & N) Sh. apply Forall_app in P as [P Pc]. apply Forall_app in Sh as [Sh _]. inversion Pc as [|? ? Q _]. subst. cbn [proper] in Q.
  destruct (C91_every_value _ (document_writable ms cc P Sh N) (document_nested ms cc)) as (t & D). exists t. split; [eauto|]. intros o w p X F.
  apply (document_loads ms cc P Q o w p X). exact (F _ D).
Qed.
Print Assumptions C91_every_pipeline.

(** ** A case: two texts for the same pipeline. *)
Definition case_raw : list str :=
  map lit ["# settings"; "---"; ""; "modifiers:   # three"; "    trim:  "] ++ [lit "    character_eliminator: [x, '-']" ++ [0x0D%N]] ++
  map lit ["    consecutive_character_reducer:   ""\u30Fc"""; "items:"; "  b:"; "     # one"; "  - a"; "  -   ""c"" # two"; ""].
Definition case_raw' : list str :=
  [lit "modifiers: {""trim"": ~,character_eliminator: [x, ""-"" ] , consecutive_character_reducer: " ++ [0x30FC%N] ++ lit "}"] ++ map lit ["items:"; " b:"; "   -"; "     a"; "   - c"].
Definition case_value : yval := YMap
  [(ystr "modifiers", YMap [(ystr "trim", YNull); (ystr "character_eliminator", YSeq [ystr "x"; ystr "-"]); (ystr "consecutive_character_reducer", YStr [0x30FC%N])]);
   (ystr "items", YMap [(ystr "b", YSeq [ystr "a"; ystr "c"])])].
Example C91_case :
  document_text (joined [NEWLINE] case_raw) case_value /\ document_text (joined [NEWLINE] case_raw') case_value /\ joined [NEWLINE] case_raw <> joined [NEWLINE] case_raw' /\ writable case_value /\
  yaml_file (text_world (joined [NEWLINE] case_raw)) (lit "/t.yaml") (joined [NEWLINE] case_raw) /\
  (exists c, from_config_file no_order (text_world (joined [NEWLINE] case_raw)) (lit "/t.yaml") = Ok c /\ normalize false no_order c (lit " axxc-" ++ [0x30FC; 0x30FC]%N) = Ok (lit "bb" ++ [0x30FC%N])) /\
  (* other texts stand for other values *)
  document_text (lit "a: 1") (YMap [(ystr "a", YNum)]) /\ document_text (lit "a: ""1""") (YMap [(ystr "a", ystr "1")]) /\
  (* nothing is said about others *)
  forall v, ~ document_text (lit "a: b: c") v /\ ~ document_text (lit "a: 1" ++ [NEWLINE] ++ lit "a: 2") v /\ ~ document_text (lit "a: [b") v.
Proof.
  assert (Ap : forall ss, NoDup ss -> apart (map YStr ss)).
  { intros ss N. rewrite <- (map_id ss). rewrite map_map. apply (apart_via (fun s => s)). rewrite map_id. exact N. }
  assert (A1 : apart [ystr "modifiers"; ystr "items"]) by (apply (Ap [lit "modifiers"; lit "items"]); repeat constructor; cbn [In]; intros Q; repeat (destruct Q as [Q|Q]; [discriminate Q|]); exact Q).
  assert (A2 : apart [ystr "trim"; ystr "character_eliminator"; ystr "consecutive_character_reducer"]).
  { apply (Ap [lit "trim"; lit "character_eliminator"; lit "consecutive_character_reducer"]). repeat constructor; cbn [In]; intros Q; repeat (destruct Q as [Q|Q]; [discriminate Q|]); exact Q. }
  assert (A3 : apart [ystr "b"]) by (apply (Ap [lit "b"]); constructor; [intros []|constructor]).
  split; [apply read_sound; vm_compute; reflexivity|]. split; [apply read_sound; vm_compute; reflexivity|]. split; [|split; [|split; [|split; [|split]]]].
  - vm_compute. discriminate.
  - repeat (apply wr_map; [assumption|repeat (apply Forall_cons; [split; [apply Nat.leb_le; reflexivity|]|]); try apply Forall_nil]); try constructor; repeat constructor.
  - intros v H. apply document_read in H. unfold text_world. rewrite H. reflexivity.
  - eexists. split; vm_compute; reflexivity.
  - apply read_sound. vm_compute. reflexivity.
  - split; [apply read_sound; vm_compute; reflexivity|]. intros v. repeat split; intros H; apply document_read in H; vm_compute in H; discriminate H.
Qed.
