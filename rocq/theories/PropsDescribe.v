(** Property C90: which pipelines configuration files can describe. *)
From Coq Require Import String Permutation.
From Verif Require Import Base BaseFacts Utf8 StrOps Corr Table Charset Position Converter Eliminator Reducer Dotted Ligature TrimMod Neologdn
  ModifierKind KindEq PathModel Yaml File Configuration ChanomaModel Csv CharSpec Spec CorrFacts CorrProps TableFacts CharsetFacts NeoFacts NeoProps
  PropsConverter PropsNeo PropsPipeline FileSpec PathSpec ConfigSpec CsvSpec FileProps PathProps ConfigProps Utf8Props CsvProps PropsFile PropsCsv PropsConfig ConverterFacts CommProps PropsEq.
Local Open Scope string_scope.
Local Open Scope list_scope.

(** ** Vocabulary *)
(** The name of a kind of modifier in YAML files. *)
Definition kind_name (m : modifier) : str :=
  match m with
  | MConv _ => lit "character_converter"
  | MElim _ => lit "character_eliminator"
  | MRed _ => lit "consecutive_character_reducer"
  | MLig _ => lit "ligature_translator"
  | MDot => lit "dotted_space_eliminator"
  | MTrim => lit "trim"
  | MNeo _ => lit "neologdn"
  end.
(** No mapping of a YAML document has a key twice (a [serde_yaml::Mapping] holds each key once). *)
Inductive unique_keys : yval -> Prop :=
| uk_null : unique_keys YNull
| uk_bool : unique_keys YBool
| uk_num : unique_keys YNum
| uk_str s : unique_keys (YStr s)
| uk_seq l : Forall unique_keys l -> unique_keys (YSeq l)
| uk_map l : NoDup (map fst l) -> Forall (fun kv => unique_keys (fst kv) /\ unique_keys (snd kv)) l -> unique_keys (YMap l).
(** The characters of a converter are characters. *)
Definition real (m : modifier) : Prop :=
  match m with MConv cc => Forall (fun kv => is_scalar (fst kv) = true /\ is_scalar (snd kv) = true) cc | _ => True end.
(** Different kinds of modifiers, then a converter. *)
Definition yaml_shape (c : list modifier) : Prop := exists ms cc, c = ms ++ [MConv cc] /\ NoDup (map kind_name ms).
Definition csv_shape (c : list modifier) : Prop := exists cc, c = [MConv cc].
(** Parts of a pipeline for the twelve places where a file may be found. *)
Definition part (shape : list modifier -> Prop) (g : list modifier) : Prop := g = [] \/ shape g.
Definition places : list (list modifier -> Prop) :=
  [csv_shape; yaml_shape; csv_shape; yaml_shape; csv_shape; yaml_shape; csv_shape; yaml_shape; csv_shape; yaml_shape; csv_shape; yaml_shape].
Definition in_parts (c : list modifier) : Prop := exists gs, Forall2 part places gs /\ c = concat gs.
Definition keyed (w : world) : Prop := forall p data, w_yaml w p = Some (Some data) -> unique_keys data.

(** ** Documents for pipelines *)
Definition value_for (m : modifier) : yval :=
  match m with
  | MConv cc => YMap (map (fun kv => (YStr [fst kv], YStr [snd kv])) cc)
  | MElim el => YSeq (map (fun c => YStr [c]) el)
  | MRed c => YStr [c]
  | MLig l => YMap (map (fun kv => (YStr (fst kv), YStr (snd kv))) l)
  | MDot | MTrim | MNeo _ => YNull
  end.
Definition entry_for (m : modifier) : yval * yval := (YStr (kind_name m), value_for m).
Definition items_for (cc : list (char * char)) : list item := map (fun kv => Item [fst kv] [snd kv]) cc.
Definition document (ms : list modifier) (cc : list (char * char)) : yval :=
  YMap [(YStr (lit "modifiers"), YMap (map entry_for ms));
        (YStr (lit "items"), YMap (map (fun kv => (YStr (fst kv), YSeq (map YStr (snd kv)))) (item_map (items_for cc))))].

Lemma nodup_map_inj {A B} (f : A -> B) l : (forall x y, f x = f y -> x = y) -> NoDup l -> NoDup (map f l).
Proof.
  intros I. induction 1 as [|x l N D IH]; cbn; constructor; [|exact IH]. intros J. apply in_map_iff in J as (y & E & J). apply I in E. subst. contradiction.
Qed.
Lemma nodup_map_via {A B C} (g : A -> B) (f : B -> C) l : (forall x y, f x = f y -> x = y) -> NoDup (map g l) -> NoDup (map (fun x => f (g x)) l).
Proof. intros I N. rewrite <- map_map. apply nodup_map_inj; assumption. Qed.
Lemma collect_same {K V} (keq : K -> K -> bool) (kiff : forall a b, keq a b = true <-> a = b) (kvs : list (K * V)) :
  NoDup (map fst kvs) -> forall k v, In (k, v) (hm_collect keq kvs) <-> In (k, v) kvs.
Proof.
  intros N k v. split; intros I.
  - apply (hm_In_get keq kiff) in I; [|apply (hm_collect_nodup keq kiff)]. rewrite (hm_get_collect keq kiff) in I.
    apply (hm_get_In keq kiff) in I. apply in_rev, I.
  - apply (hm_get_In keq kiff). rewrite (hm_get_collect keq kiff). apply (hm_In_get keq kiff); [rewrite map_rev; apply NoDup_rev, N|].
    apply -> in_rev. exact I.
Qed.
Lemma traverse_conv cc :
  traverse (fun kv : yval * yval => k <- str_first (fst kv) ;; x <- str_first (snd kv) ;; Ok (k, x))
    (map (fun kv : char * char => (YStr [fst kv], YStr [snd kv])) cc) = Ok cc.
Proof. apply traverse_Ok_inv. induction cc as [|[a b] cc IH]; cbn [map]; constructor; [reflexivity|exact IH]. Qed.
Lemma traverse_elim el : traverse str_first (map (fun c : char => YStr [c]) el) = Ok el.
Proof. apply traverse_Ok_inv. induction el; cbn [map]; constructor; [reflexivity|assumption]. Qed.
Lemma traverse_lig (l : list (str * str)) :
  traverse (fun kv : yval * yval => k <- unwrap (as_str (fst kv)) ;; x <- unwrap (as_str (snd kv)) ;; Ok (k, x))
    (map (fun kv : str * str => (YStr (fst kv), YStr (snd kv))) l) = Ok l.
Proof. apply traverse_Ok_inv. induction l as [|[a b] l IH]; cbn [map]; constructor; [reflexivity|exact IH]. Qed.
Lemma entry_loads o m : proper m -> exists m', modifier_from_yaml o (YStr (kind_name m)) (value_for m) = Ok m' /\ same_contents m' m.
Proof.
  destruct m as [cc|el|c| |l| |n]; intros P; cbn [proper] in P.
  - exists (MConv (hm_collect N.eqb cc)). split.
    + change (x <- conv_from_yaml (value_for (MConv cc)) ;; Ok (MConv x) = Ok (MConv (hm_collect N.eqb cc))).
      unfold conv_from_yaml. cbn [value_for as_mapping unwrap bind]. rewrite traverse_conv. reflexivity.
    + cbn [same_contents]. apply (collect_same N.eqb N.eqb_eq), P.
  - exists (MElim (elim_from_chars el)). split.
    + change (x <- elim_from_yaml (value_for (MElim el)) ;; Ok (MElim x) = Ok (MElim (elim_from_chars el))).
      unfold elim_from_yaml. cbn [value_for as_sequence unwrap bind]. rewrite traverse_elim. reflexivity.
    + cbn [same_contents]. intros c. unfold elim_from_chars. rewrite (hs_insert_all_In N.eqb N.eqb_eq). cbn. tauto.
  - exists (MRed c). split; reflexivity.
  - exists MDot. split; [reflexivity|exact I].
  - exists (MLig (hm_collect str_eqb l)). split.
    + change (x <- lig_from_yaml (value_for (MLig l)) ;; Ok (MLig x) = Ok (MLig (hm_collect str_eqb l))).
      unfold lig_from_yaml. cbn [value_for as_mapping unwrap bind]. rewrite traverse_lig. reflexivity.
    + cbn [same_contents]. apply (collect_same str_eqb str_eqb_eq), P.
  - exists MTrim. split; [reflexivity|exact I].
  - exists (MNeo NEO). split; [|exact I].
    change (x <- neologdn_new o ;; Ok (MNeo x) = Ok (MNeo NEO)). rewrite neologdn_new_eq. reflexivity.
Qed.
Lemma entries_load ms : Forall proper ms -> forall o i, exists ms', yaml_modifiers o i (map entry_for ms) = Ok ms' /\ Forall2 same_contents ms' ms.
Proof.
  induction 1 as [|m ms P _ IH]; intros o i; cbn [map yaml_modifiers entry_for].
  - exists []. split; [reflexivity|constructor].
  - destruct (entry_loads (sub o i) m P) as (m' & E & Sm). destruct (IH o (S i)) as (r & E' & F). exists (m' :: r). rewrite E. cbn [bind]. rewrite E'.
    split; [reflexivity|constructor; assumption].
Qed.
Lemma pairs_items_for cc : pairs_of (items_for cc) = cc.
Proof. induction cc as [|[a b] cc IH]; [reflexivity|]. unfold items_for, pairs_of in *. cbn. f_equal. exact IH. Qed.
Lemma pairs_perm a b : Permutation a b -> Permutation (pairs_of a) (pairs_of b).
Proof. unfold pairs_of. apply Permutation_flat_map. Qed.
Lemma perm_contents (cc : list (char * char)) items : NoDup (map fst cc) -> Permutation items (items_for cc) ->
  no_empty_string items /\ same_contents (MConv (hm_collect N.eqb (pairs_of items))) (MConv cc).
Proof.
  intros N P. split.
  - apply Forall_forall. intros it I. apply (Permutation_in _ P) in I. unfold items_for in I. apply in_map_iff in I as (kv & <- & _). split; discriminate.
  - pose proof (pairs_perm _ _ P) as Q. rewrite pairs_items_for in Q. cbn [same_contents]. intros c t.
    rewrite (collect_same N.eqb N.eqb_eq).
    + split; intros I; [apply (Permutation_in _ Q I)|apply (Permutation_in _ (Permutation_sym Q) I)].
    + apply (Permutation_NoDup (l := map fst cc)); [apply Permutation_map, Permutation_sym, Q|exact N].
Qed.
Lemma document_items ms cc : exists items, items_described (document ms cc) items /\ Permutation items (items_for cc).
Proof.
  destruct (C38_lemma (items_for cc)) as (_ & _ & P).
  exists (concat (map (fun kv => map (fun v => Item v (fst kv)) (snd kv)) (item_map (items_for cc)))). split; [|rewrite <- flat_map_concat_map; exact P].
  right. eexists. exists (map (fun kv => map (fun v => Item v (fst kv)) (snd kv)) (item_map (items_for cc))). split; [|split; [|reflexivity]].
  - apply yget_iff. reflexivity.
  - clear P. induction (item_map (items_for cc)) as [|[k vs] l IH]; cbn [map]; constructor; [|exact IH]. apply ei_many.
Qed.
Lemma ordered_nodup l : ordered lex_lt l -> NoDup l.
Proof.
  induction l as [|x l IH]; cbn [ordered]; intros H; constructor.
  - intros I. destruct H as [F _]. rewrite Forall_forall in F. exact (lex_lt_irrefl x (F x I)).
  - apply IH, H.
Qed.
Lemma document_keys ms cc : Forall proper ms -> NoDup (map kind_name ms) -> unique_keys (document ms cc).
Proof.
  intros P N. apply uk_map; [cbn; constructor; [intros [E|[]]; discriminate|constructor; [intros []|constructor]]|].
  constructor; [|constructor; [|constructor]]; cbn [fst snd]; split; try apply uk_str; apply uk_map.
  - rewrite map_map. apply (nodup_map_via kind_name YStr); [intros x y E; injection E as ->; reflexivity|exact N].
  - apply Forall_forall. intros kv I. apply in_map_iff in I as (m & <- & I). rewrite Forall_forall in P. specialize (P m I). cbn [entry_for fst snd].
    split; [apply uk_str|]. destruct m as [cv|el|c| |l| |n]; cbn [value_for proper] in *; try constructor.
    + rewrite map_map. apply (nodup_map_via fst (fun c : char => YStr [c])); [intros x y E; injection E as ->; reflexivity|exact P].
    + apply Forall_forall. intros kv J. apply in_map_iff in J as (x & <- & _). split; apply uk_str.
    + apply Forall_forall. intros v J. apply in_map_iff in J as (x & <- & _). apply uk_str.
    + rewrite map_map. apply (nodup_map_via fst YStr); [intros x y E; injection E as ->; reflexivity|exact P].
    + apply Forall_forall. intros kv J. apply in_map_iff in J as (x & <- & _). split; apply uk_str.
  - rewrite map_map. apply (nodup_map_via fst YStr); [intros x y E; injection E as ->; reflexivity|].
    apply ordered_nodup, C38_lemma.
  - apply Forall_forall. intros kv I. apply in_map_iff in I as (g & <- & _). cbn [fst snd]. split; [apply uk_str|]. apply uk_seq.
    apply Forall_forall. intros v J. apply in_map_iff in J as (x & <- & _). apply uk_str.
Qed.
Lemma document_loads ms cc : Forall proper ms -> NoDup (map fst cc) -> forall o w p, is_yaml p -> w_yaml w p = Some (Some (document ms cc)) ->
  exists c, from_config_file o w p = Ok c /\ Forall2 same_contents c (ms ++ [MConv cc]).
Proof.
  intros P N o w p X W. destruct (entries_load ms P o 0) as (ms' & E & F). destruct (document_items ms cc) as (items & D & Q).
  destruct (perm_contents cc items N Q) as (E0 & S). exists (ms' ++ [MConv (hm_collect N.eqb (pairs_of items))]). split.
  - apply (C44_yaml o w p _ X). exists items, ms'. split; [exists (document ms cc); auto|]. split; [exact E0|]. split; [|reflexivity].
    rewrite (yaml_modifiers_iff o w p _ W). exact E.
  - apply Forall2_app; [exact F|constructor; [exact S|constructor]].
Qed.
Lemma kind_of_entry o k v m : modifier_from_yaml o k v = Ok m -> k = YStr (kind_name m).
Proof.
  unfold modifier_from_yaml. intros H. apply bind_ok in H as (s & E & H). destruct k; try discriminate E. cbn in E. apply Ok_inj in E. subst s0. f_equal.
  assert (T : forall n, str_eqb s n = true -> s = n) by (intros n; apply str_eqb_eq).
  repeat (match type of H with (if str_eqb s ?n then _ else _) = _ => let Q := fresh in destruct (str_eqb s n) eqn:Q;
    [apply T in Q; subst s; first [apply bind_ok in H as (x & _ & H); apply Ok_inj in H; subst m; reflexivity
                                  |unfold null_only in H; destruct (is_null v); [apply Ok_inj in H; subst m; reflexivity|discriminate H]]|] end).
  discriminate H.
Qed.
Lemma kinds_of_entries l : forall o i ms, yaml_modifiers o i l = Ok ms -> map fst l = map YStr (map kind_name ms).
Proof.
  induction l as [|[k v] l IH]; intros o i ms H; cbn [yaml_modifiers] in H; [apply Ok_inj in H; subst; reflexivity|].
  apply bind_ok in H as (m & E & H). apply bind_ok in H as (r & E' & H). apply Ok_inj in H. subst ms. cbn [map fst].
  f_equal; [apply (kind_of_entry _ _ _ _ E)|apply (IH _ _ _ E')].
Qed.
Lemma yaml_kinds o w p c data : is_yaml p -> w_yaml w p = Some (Some data) -> unique_keys data -> from_config_file o w p = Ok c -> yaml_shape c.
Proof.
  intros X W U H. apply (C44_yaml o w p c X) in H as (items & ms & _ & _ & M & ->). exists ms. eexists. split; [reflexivity|].
  rewrite (yaml_modifiers_iff o w p _ W) in M. unfold modifiers_of_yaml in M. destruct (yget (lit "modifiers") data) as [v|] eqn:Y.
  - apply bind_ok in M as (l & E & M). destruct v; try discriminate E. cbn in E. apply Ok_inj in E. subst l0. apply yget_iff in Y as (l1 & l2 & -> & _).
    inversion U as [| | | | |l' _ F]. subst l'. apply Forall_app in F as [_ F]. inversion F as [|kv r [_ Uv] _]. subst kv r. cbn [snd] in Uv.
    inversion Uv as [| | | | |l' Nd _]. subst l'. rewrite (kinds_of_entries _ _ _ _ M) in Nd. apply NoDup_map_inv in Nd. exact Nd.
  - apply Ok_inj in M. subst ms. constructor.
Qed.
Lemma same_kind m m' : same_contents m m' -> kind_name m = kind_name m'.
Proof. destruct m, m'; cbn [same_contents]; intros H; try destruct H; reflexivity. Qed.
Lemma same_kinds a b : Forall2 same_contents a b -> map kind_name a = map kind_name b.
Proof. induction 1; cbn [map]; [reflexivity|]. f_equal; [apply same_kind; assumption|assumption]. Qed.
Lemma same_refl m : same_contents m m.
Proof. destruct m; cbn [same_contents]; tauto. Qed.
Lemma csv_shape_same a b : Forall2 same_contents a b -> csv_shape a -> csv_shape b.
Proof.
  intros F (cc & ->). inversion F as [|x y l l' S F']. subst. inversion F'. subst. destruct y; cbn [same_contents] in S; try destruct S. eexists. reflexivity.
Qed.
Lemma yaml_shape_same a b : Forall2 same_contents a b -> yaml_shape a -> yaml_shape b.
Proof.
  intros F (ms & cc & -> & N). apply Forall2_app_inv_l in F as (ms' & l & F1 & F2 & ->). destruct (csv_shape_same _ _ F2 (ex_intro _ cc eq_refl)) as (cc' & ->).
  exists ms', cc'. split; [reflexivity|]. rewrite <- (same_kinds _ _ F1). exact N.
Qed.

Lemma yaml_length c : yaml_shape c -> length c <= 8.
Proof.
  intros (ms & cc & -> & N). rewrite app_length. cbn.
  enough (L : length (map kind_name ms) <= length modifier_names) by (rewrite map_length in L; cbn in L; lia).
  apply NoDup_incl_length; [exact N|]. intros k I. apply in_map_iff in I as (m & <- & _). unfold modifier_names. destruct m; cbn [kind_name In]; tauto.
Qed.

(** ** C90 *)
(** One YAML file describes exactly the pipelines of different kinds of modifiers followed by a converter. *)
Theorem C90_yaml_exactly : forall c, Forall proper c ->
  (yaml_shape c <->
   exists data, unique_keys data /\ forall o w p, is_yaml p -> w_yaml w p = Some (Some data) ->
     exists c', from_config_file o w p = Ok c' /\ Forall2 same_contents c' c).
Proof.
  intros c P. split.
  - intros (ms & cc & -> & N). apply Forall_app in P as [P1 P2]. inversion P2 as [|x l Pc _]. subst. cbn [proper] in Pc.
    exists (document ms cc). split; [apply document_keys; assumption|]. apply document_loads; assumption.
  - intros (data & U & H). destruct (H no_order (yaml_world data) (lit "a.yaml")) as (c' & E & F); [left; apply extension_iff; reflexivity|reflexivity|].
    apply (yaml_shape_same _ _ F). apply (yaml_kinds _ _ _ _ data) in E; [exact E|left; apply extension_iff; reflexivity|reflexivity|exact U].
Qed.
Print Assumptions C90_yaml_exactly.
(** Any file read: at most one modifier of each kind, then a converter. *)
Theorem C90_shape : forall o w p c, keyed w -> from_config_file o w p = Ok c ->
  yaml_shape c /\ (has_extension p (lit "csv") -> csv_shape c) /\ length c <= 8.
Proof.
  intros o w p c K H.
  assert (Y : yaml_shape c /\ (has_extension p (lit "csv") -> csv_shape c)).
  { destruct (C44_structure o w p c H) as (ms & cc & E & E1 & E2). split; [|intros X; rewrite E, (E1 X); exists cc; reflexivity].
    destruct (config_ext _ _ _ _ H) as [X|X].
    - exists [], cc. rewrite E, (E1 X). split; [reflexivity|constructor].
    - pose proof H as H'. apply (C44_yaml o w p c X) in H' as (items & ms' & (data & W & _) & _). apply (yaml_kinds o w p c data X W (K p data W) H). }
  split; [apply Y|]. split; [apply Y|]. apply yaml_length, Y.
Qed.
Print Assumptions C90_shape.
(** One CSV file describes exactly the converters. *)
Definition csv_bytes (cc : list (char * char)) : list N := encode (lit "h" ++ [LF]) ++ to_csv_bytes no_order (fun _ => items_for cc).
Lemma csv_loads cc : NoDup (map fst cc) -> real (MConv cc) -> forall o w p, has_extension p (lit "csv") -> file_at w p (FileBytes (csv_bytes cc)) ->
  exists c, from_config_file o w p = Ok c /\ Forall2 same_contents c [MConv cc].
Proof.
  intros N R o w p X F. destruct (C71_with_header no_order (fun _ => items_for cc) w p (lit "h") [lit "h"]) as (t & T & P).
  - unfold valid_items, items_for. apply Forall_forall. intros it I. apply in_map_iff in I as (kv & <- & I). cbn [real] in R. rewrite Forall_forall in R.
    destruct (R kv I) as [R1 R2]. cbn [from to]. split; (constructor; [assumption|constructor]).
  - apply rt_one, ft_plain; [constructor; [repeat split; discriminate|constructor]|discriminate].
  - discriminate.
  - repeat constructor.
  - discriminate.
  - exact F.
  - destruct (perm_contents cc (table_items t) N P) as (E0 & S). eexists. split.
    + apply (C44_csv o w p _ X). exists (table_items t). eexists. split; [|split; [exact E0|split; reflexivity]].
      apply load_table_iff. cbn [load_table]. rewrite <- (load_table_origin w p Csv t T). exact T.
    + constructor; [exact S|constructor].
Qed.
Theorem C90_csv_exactly : forall c, Forall proper c -> Forall real c ->
  (csv_shape c <->
   exists b, forall o w p, has_extension p (lit "csv") -> file_at w p (FileBytes b) ->
     exists c', from_config_file o w p = Ok c' /\ Forall2 same_contents c' c).
Proof.
  intros c P R. split.
  - intros (cc & ->). inversion P as [|x l Pc _]. inversion R as [|x' l' Rc _]. subst. exists (csv_bytes cc). apply csv_loads; assumption.
  - intros (b & H). pose (w := World (fun _ => true) (fun _ => Some (csv_of_file (FileBytes b))) (fun _ => None) (fun _ => None) EnvAbsent None None).
    destruct (H no_order w (lit "a.csv")) as (c' & E & F); [apply extension_iff; reflexivity|reflexivity|].
    apply (csv_shape_same _ _ F). apply C90_shape in E; [apply E; apply extension_iff; reflexivity|]. intros p data D. discriminate D.
Qed.
Print Assumptions C90_csv_exactly.

(** ** The configuration files that are searched for *)
Definition fits (p : path) (sh : list modifier -> Prop) : Prop :=
  sh = csv_shape /\ has_extension p (lit "csv") \/ sh = yaml_shape /\ is_yaml p.
Definition four : list (list modifier -> Prop) := [csv_shape; yaml_shape; csv_shape; yaml_shape].
Lemma names_fit d : Forall2 fits (names_in d) four.
Proof.
  destruct (names_ext d) as (a & b & c & e & -> & A & B & C & E). unfold four, fits, is_yaml. repeat (apply Forall2_cons; [auto|]). constructor.
Qed.
Lemma nothing shapes : Forall2 part shapes (map (fun _ => []) shapes).
Proof. induction shapes; cbn [map]; constructor; [left; reflexivity|assumption]. Qed.
Lemma nothing_concat (shapes : list (list modifier -> Prop)) : concat (map (fun _ => @nil modifier) shapes) = [].
Proof. induction shapes; [reflexivity|assumption]. Qed.
Lemma group_parts o w ps shapes : keyed w -> Forall2 fits ps shapes -> forall cs, Forall2 (fun p c' => from_config_file o w p = Ok c') (filter (w_is_file w) ps) cs ->
  exists gs, Forall2 part shapes gs /\ concat cs = concat gs.
Proof.
  intros K. induction 1 as [|p sh ps shapes X _ IH]; intros cs F; cbn [filter] in F.
  - inversion F. exists []. split; [constructor|reflexivity].
  - destruct (w_is_file w p).
    + inversion F as [|x c l cs' Hc F']. subst. destruct (IH _ F') as (gs & G & E). exists (c :: gs). split; [|cbn; rewrite E; reflexivity].
      constructor; [|exact G]. right. destruct (C90_shape o w p c K Hc) as (Y & Cs & _). destruct X as [[-> X]|[-> X]]; auto.
    + destruct (IH _ F) as (gs & G & E). exists ([] :: gs). split; [|exact E]. constructor; [left; reflexivity|exact G].
Qed.
Definition six_or_less (home cwd : option path) : list (list modifier -> Prop) :=
  (match home with Some _ => four ++ four | None => [] end) ++ (match cwd with Some _ => four | None => [] end).
Lemma candidates_fit home cwd : Forall2 fits (candidates home cwd) (six_or_less home cwd).
Proof.
  unfold candidates, six_or_less. apply Forall2_app.
  - destruct home; [apply Forall2_app; apply names_fit|constructor].
  - destruct cwd; [apply names_fit|constructor].
Qed.
Lemma pad_parts home cwd gs : Forall2 part (six_or_less home cwd) gs -> in_parts (concat gs).
Proof.
  unfold six_or_less. intros H. apply Forall2_app_inv_l in H as (g1 & g2 & H1 & H2 & ->). rewrite concat_app.
  assert (A : exists h1, Forall2 part (four ++ four) h1 /\ concat h1 = concat g1).
  { destruct home; [exists g1; auto|]. inversion H1. exists (map (fun _ => []) (four ++ four)). split; [apply nothing|reflexivity]. }
  assert (B : exists h2, Forall2 part four h2 /\ concat h2 = concat g2).
  { destruct cwd; [exists g2; auto|]. inversion H2. exists (map (fun _ => []) four). split; [apply nothing|reflexivity]. }
  destruct A as (h1 & A1 & A2), B as (h2 & B1 & B2). exists (h1 ++ h2). split; [|rewrite concat_app, A2, B2; reflexivity].
  change places with ((four ++ four) ++ four). apply Forall2_app; assumption.
Qed.
Lemma in_parts_length c : in_parts c -> length c <= 54.
Proof.
  assert (A : forall g, part csv_shape g -> length g <= 1) by (intros g [->|(cc & ->)]; cbn; lia).
  assert (B : forall g, part yaml_shape g -> length g <= 8) by (intros g [->|H]; [cbn; lia|apply yaml_length, H]).
  intros (gs & F & ->). unfold places in F.
  repeat (match goal with F : Forall2 part (_ :: _) _ |- _ => inversion F; clear F; subst end).
  match goal with F : Forall2 part [] _ |- _ => inversion F; subst end. cbn [concat]. rewrite !app_length. cbn [length].
  repeat (match goal with H : part csv_shape _ |- _ => apply A in H | H : part yaml_shape _ |- _ => apply B in H end). lia.
Qed.
(** All the files together: at most twelve such parts, one after the other. *)
Theorem C90_rc_shape : forall o w c, keyed w -> load_rc o w = Ok c ->
  (chanomarc_unset w -> in_parts c /\ length c <= 54) /\
  (forall s, w_env w = EnvUnicode s -> unicode s -> yaml_shape c /\ length c <= 8).
Proof.
  intros o w c K H. split.
  - intros N. assert (P : in_parts c).
    { apply (C46_ok o w c N) in H as (cs & F & ->). unfold found in F.
      destruct (group_parts o w _ _ K (candidates_fit (w_home w) (w_cwd w)) cs F) as (gs & G & ->). apply (pad_parts _ _ _ G). }
    split; [exact P|apply in_parts_length, P].
  - intros s E U. destruct (C45_lemma o w s E U) as (C1 & C2 & C3 & C4). destruct (w_is_file w s); [|rewrite (C1 eq_refl) in H; discriminate H].
    assert (L : load_rc o w = from_config_file o w s).
    { destruct (extension s) as [x|] eqn:X.
      - apply extension_iff in X. destruct (list_eq_dec N.eq_dec x (lit "csv")) as [->|N1]; [apply C2; auto|].
        destruct (list_eq_dec N.eq_dec x (lit "yaml")) as [->|N2]; [apply C2; auto|]. rewrite (C3 eq_refl x X N1 N2) in H. discriminate H.
      - rewrite (C4 eq_refl (proj1 (extension_None s) X)) in H. discriminate H. }
    rewrite L in H. destruct (C90_shape o w s c K H) as (Y & _ & Len). auto.
Qed.
Print Assumptions C90_rc_shape.

Definition same_shape (sh : list modifier -> Prop) : Prop := forall a b, Forall2 same_contents a b -> part sh a -> part sh b.
Lemma parts_same shapes gs : Forall same_shape shapes -> Forall2 part shapes gs -> forall c, Forall2 same_contents (concat gs) c ->
  exists gs', Forall2 part shapes gs' /\ c = concat gs'.
Proof.
  intros C F. induction F as [|sh g shapes gs P F IH]; intros c H; cbn [concat] in H.
  - inversion H. exists []. split; [constructor|reflexivity].
  - inversion C as [|x l C1 C2]. subst. apply Forall2_app_inv_l in H as (a & b & H1 & H2 & ->). destruct (IH C2 _ H2) as (gs' & F' & ->).
    exists (a :: gs'). split; [|reflexivity]. constructor; [apply (C1 g a H1 P)|exact F'].
Qed.
Lemma places_same : Forall same_shape places.
Proof.
  assert (A : same_shape csv_shape).
  { intros a b F [->|H]; [inversion F; left; reflexivity|right; apply (csv_shape_same _ _ F H)]. }
  assert (B : same_shape yaml_shape).
  { intros a b F [->|H]; [inversion F; left; reflexivity|right; apply (yaml_shape_same _ _ F H)]. }
  unfold places. repeat (constructor; [first [exact A|exact B]|]). constructor.
Qed.
(** CSV files consist of bytes. *)
Definition csv_from_bytes (w : world) : Prop := forall p recs, w_csv w p = Some recs -> exists b, recs = csv_of_file (FileBytes b).
Definition extend {A} (p : path) (x : A) (f : path -> A) : path -> A := fun q => if list_eq_dec N.eq_dec q p then x else f q.
Lemma extend_here {A} p (x : A) f : extend p x f p = x.
Proof. unfold extend. destruct (list_eq_dec N.eq_dec p p); [reflexivity|contradiction]. Qed.
Lemma extend_there {A} p q (x : A) f : q <> p -> extend p x f q = f q.
Proof. unfold extend. destruct (list_eq_dec N.eq_dec q p); [contradiction|reflexivity]. Qed.
Lemma Some_same {A} (x y : A) : Some x = Some y -> y = x.
Proof. congruence. Qed.
Lemma build_files ps shapes : Forall2 fits ps shapes -> NoDup ps -> forall gs, Forall2 part shapes gs ->
  Forall proper (concat gs) -> Forall real (concat gs) ->
  exists isf csvf yamlf,
    (forall q recs, csvf q = Some recs -> exists b, recs = csv_of_file (FileBytes b)) /\
    (forall q data, yamlf q = Some (Some data) -> unique_keys data) /\
    forall w, (forall q, In q ps -> w_csv w q = csvf q /\ w_yaml w q = yamlf q) -> forall o,
      exists cs, Forall2 (fun p c' => from_config_file o w p = Ok c') (filter isf ps) cs /\ Forall2 same_contents (concat cs) (concat gs).
Proof.
  induction 1 as [|p sh ps shapes X _ IH]; intros N gs F P R.
  - exists (fun _ => false), (fun _ => None), (fun _ => None). split; [discriminate|]. split; [discriminate|]. intros w _ o. exists []. cbn [filter].
    inversion F. split; constructor.
  - inversion N as [|x l Np N']. subst. inversion F as [|s g shapes' gs' Pg F']. subst. cbn [concat] in P, R. apply Forall_app in P as [P1 P2]. apply Forall_app in R as [R1 R2].
    destruct (IH N' gs' F' P2 R2) as (isf & csvf & yamlf & A & B & C). clear IH.
    assert (G : exists flag xc xy, (forall recs, xc = Some recs -> exists b, recs = csv_of_file (FileBytes b)) /\ (forall data, xy = Some (Some data) -> unique_keys data) /\
      if flag : bool then forall o w, w_csv w p = xc -> w_yaml w p = xy -> exists c, from_config_file o w p = Ok c /\ Forall2 same_contents c g else g = []).
    { destruct Pg as [->|Sg]; [exists false, None, None; split; [discriminate|split; [discriminate|reflexivity]]|].
      destruct X as [[-> X]|[-> X]].
      - destruct Sg as (cc & ->). inversion P1 as [|? ? Pc _]. inversion R1 as [|? ? Rc _]. subst.
        exists true, (Some (csv_of_file (FileBytes (csv_bytes cc)))), None. split; [intros recs E; apply Some_same in E; exists (csv_bytes cc); exact E|]. split; [intros data; discriminate|].
        intros o w W _. apply csv_loads; assumption.
      - destruct Sg as (ms & cc & -> & Nk). apply Forall_app in P1 as [Pm Pc]. inversion Pc as [|? ? Pcc _]. subst.
        exists true, None, (Some (Some (document ms cc))). split; [discriminate|]. split; [intros data E; injection E as <-; apply document_keys; assumption|].
        intros o w _ W. apply document_loads; assumption. }
    destruct G as (flag & xc & xy & G1 & G2 & G3).
    exists (extend p flag isf), (extend p xc csvf), (extend p xy yamlf). split; [|split].
    + intros q recs. unfold extend. destruct (list_eq_dec N.eq_dec q p); [apply G1|apply A].
    + intros q data. unfold extend. destruct (list_eq_dec N.eq_dec q p); [apply G2|apply B].
    + intros w W o. cbn [filter]. rewrite extend_here.
      rewrite (filter_ext_in (extend p flag isf) isf) by (intros q I; apply extend_there; intros ->; contradiction).
      destruct (C w) with (o := o) as (cs & F1 & F2).
      { intros q I. destruct (W q (or_intror I)) as [W1 W2]. rewrite W1, W2. split; apply extend_there; intros ->; contradiction. }
      destruct (W p (or_introl eq_refl)) as [W1 W2]. rewrite extend_here in W1. rewrite extend_here in W2. destruct flag.
      * destruct (G3 o w W1 W2) as (c & E & S). exists (c :: cs). split; [constructor; assumption|]. cbn [concat]. apply Forall2_app; assumption.
      * subst g. exists cs. split; assumption.
Qed.
(** The pipelines that files at the searched places can describe: exactly twelve parts, each possibly missing. *)
Theorem C90_rc_exactly : forall c, Forall proper c -> Forall real c ->
  (in_parts c <->
   exists w, chanomarc_unset w /\ keyed w /\ csv_from_bytes w /\ forall o, exists c', load_rc o w = Ok c' /\ Forall2 same_contents c' c).
Proof.
  intros c P R. split.
  - intros (gs & F & ->). pose (home := lit "/h"). pose (cwd := lit "/d").
    destruct (build_files (candidates (Some home) (Some cwd)) places) with (gs := gs) as (isf & csvf & yamlf & A & B & C); try assumption.
    + exact (candidates_fit (Some home) (Some cwd)).
    + apply (NoDup_count_occ (list_eq_dec N.eq_dec)). intros x.
      assert (D : forallb (fun q => Nat.leb (count_occ (list_eq_dec N.eq_dec) (candidates (Some home) (Some cwd)) q) 1) (candidates (Some home) (Some cwd)) = true)
        by (vm_compute; reflexivity).
      destruct (in_dec (list_eq_dec N.eq_dec) x (candidates (Some home) (Some cwd))) as [I|I].
      * rewrite forallb_forall in D. apply Nat.leb_le, D, I.
      * apply (count_occ_not_In (list_eq_dec N.eq_dec)) in I. rewrite I. lia.
    + exists (World isf csvf yamlf (fun _ => None) EnvAbsent (Some home) (Some cwd)).
      assert (U : chanomarc_unset (World isf csvf yamlf (fun _ => None) EnvAbsent (Some home) (Some cwd))) by (intros s; discriminate).
      split; [exact U|]. split; [exact B|]. split; [exact A|]. intros o.
      destruct (C (World isf csvf yamlf (fun _ => None) EnvAbsent (Some home) (Some cwd)) (fun q _ => conj eq_refl eq_refl) o) as (cs & F1 & F2).
      exists (concat cs). split; [|exact F2]. apply (C46_ok o _ _ U). exists cs. split; [exact F1|reflexivity].
  - intros (w & U & K & _ & H). destruct (H no_order) as (c' & E & S). destruct (C90_rc_shape _ _ _ K E) as (Q & _). destruct (Q U) as ((gs & G & ->) & _).
    destruct (parts_same places gs places_same G c S) as (gs' & G' & ->). exists gs'. auto.
Qed.
Print Assumptions C90_rc_exactly.

Lemma map_none (s : str) : map (conv1 []) s = s.
Proof. induction s as [|c s IH]; [reflexivity|]. cbn [map]. rewrite IH. reflexivity. Qed.
(** Different kinds, in any order, with any contents: some file has the same effect. *)
Theorem C90_each_kind_once : forall ms, Forall proper ms -> NoDup (map kind_name ms) ->
  exists data, unique_keys data /\ forall o w p, is_yaml p -> w_yaml w p = Some (Some data) ->
    exists c, from_config_file o w p = Ok c /\ forall s out, result c s out <-> result ms s out.
Proof.
  intros ms P N. exists (document ms []). split; [apply document_keys; assumption|]. intros o w p X W.
  destruct (document_loads ms [] P (NoDup_nil _) o w p X W) as (c & E & S). exists c. split; [exact E|]. intros s out.
  assert (Pc : Forall proper c) by (apply (file_proper o w p c E)).
  assert (Pm : Forall proper (ms ++ [MConv []])) by (apply Forall_app; split; [exact P|constructor; [constructor|constructor]]).
  rewrite (C77_lists_equal_alike c (ms ++ [MConv []]) Pc Pm) by (apply C77_lists_equal_iff; assumption).
  rewrite result_app. split.
  - intros (mid & H1 & H2). apply (does_conv [] mid) in H2. rewrite map_none in H2. subst out. exact H1.
  - intros H. exists out. split; [exact H|]. apply (does_conv [] out). symmetry. apply map_none.
Qed.
Print Assumptions C90_each_kind_once.
(** Not every pipeline is described by a file: two modifiers of one kind are not. *)
Theorem C90_every_pipeline_refuted : exists c, Forall proper c /\ Forall real c /\
  (exists o a b, modifier_from_str o (lit "consecutive_character_reducer(a)") = Ok a /\ modifier_from_str o (lit "consecutive_character_reducer(b)") = Ok b /\ c = [a; b; MConv []]) /\
  (forall o w p c', keyed w -> from_config_file o w p = Ok c' -> ~ Forall2 same_contents c' c) /\
  (forall o w c', keyed w -> chanomarc_unset w -> load_rc o w = Ok c' -> ~ Forall2 same_contents c' c).
Proof.
  exists [MRed 97%N; MRed 98%N; MConv []].
  assert (NY : ~ yaml_shape [MRed 97%N; MRed 98%N; MConv []]).
  { intros (ms & cc & E & N). destruct ms as [|x [|y ms]]; cbn in E; try discriminate E. injection E as <- <- E. cbn in N. inversion N as [|? ? H _]. apply H. left. reflexivity. }
  split; [repeat constructor|]. split; [repeat constructor|]. split; [|split].
  - exists no_order. eexists. eexists. split; [vm_compute; reflexivity|]. split; [vm_compute; reflexivity|]. reflexivity.
  - intros o w p c' K H S. apply NY, (yaml_shape_same _ _ S). apply (C90_shape _ _ _ _ K H).
  - intros o w c' K U H S. destruct (C90_rc_shape o w c' K H) as (Q & _). destruct (Q U) as ((gs & G & ->) & _).
    destruct (parts_same places gs places_same G _ S) as (gs' & G' & E). clear - G' E NY.
    assert (A : forall shapes gs, Forall2 part shapes gs -> Forall (fun sh => sh = csv_shape \/ sh = yaml_shape) shapes ->
              forall x y r, MRed x :: MRed y :: r <> concat gs).
    { clear. induction 1 as [|sh g shapes gs Pg _ IH]; intros F x y r E; cbn [concat] in E; [discriminate E|].
      inversion F as [|? ? Sh F']. subst. destruct Pg as [->|Pg]; [exact (IH F' x y r E)|].
      destruct Sh as [->| ->]; [destruct Pg as (cc & ->); discriminate E|]. destruct Pg as (ms & cc & -> & N).
      destruct ms as [|a [|b ms]]; cbn in E; try discriminate E. injection E as <- <- _. cbn in N. inversion N as [|? ? H _]. apply H. left. reflexivity. }
    refine (A places gs' G' _ _ _ _ E). unfold places. repeat (constructor; [auto|]). constructor.
Qed.
Print Assumptions C90_every_pipeline_refuted.
Example C90_case : yaml_shape [MTrim; MRed 97%N; MElim [98%N]; MConv [(99, 100); (101, 100)]%N] /\
  from_config_file no_order (yaml_world (document [MTrim; MRed 97%N; MElim [98%N]] [(99, 100); (101, 100)]%N)) (lit "a.yml") =
    Ok [MTrim; MRed 97%N; MElim [98%N]; MConv [(99, 100); (101, 100)]%N] /\
  ~ yaml_shape [MTrim] /\ in_parts [MConv []; MTrim; MConv []; MTrim; MConv []] /\ ~ in_parts [MTrim].
Proof.
  split; [|split; [|split; [|split]]].
  - exists [MTrim; MRed 97%N; MElim [98%N]]. eexists. split; [reflexivity|]. cbn [map kind_name]. repeat constructor; cbn; intuition discriminate.
  - vm_compute. reflexivity.
  - intros (ms & cc & E & _). destruct ms as [|x [|]]; discriminate E.
  - exists [[MConv []]; [MTrim; MConv []]; []; [MTrim; MConv []]; []; []; []; []; []; []; []; []]. split; [|reflexivity].
    unfold places. repeat (constructor; [first [left; reflexivity|right; exists []; reflexivity
      |right; exists [MTrim], []; split; [reflexivity|constructor; [intros []|constructor]]]|]). constructor.
  - intros (gs & F & E). revert E. assert (A : forall shapes gs, Forall2 part shapes gs -> Forall (fun sh => sh = csv_shape \/ sh = yaml_shape) shapes -> [MTrim] <> concat gs).
    { clear. induction 1 as [|sh g shapes gs Pg _ IH]; intros F E; cbn [concat] in E; [discriminate E|].
      inversion F as [|? ? Sh F']. subst. destruct Pg as [->|Pg]; [exact (IH F' E)|].
      destruct Sh as [->| ->]; [destruct Pg as (cc & ->); discriminate E|]. destruct Pg as (ms & cc & -> & N).
      destruct ms as [|a [|b ms]]; cbn in E; discriminate E. }
    refine (A places gs F _). unfold places. repeat (constructor; [auto|]). constructor.
Qed.
