(** Properties C60-C65: further properties of neologdn, the preset and pipelines. *)
From Verif Require Import Base BaseFacts StrOps Utf8 Position Converter Eliminator Reducer Dotted Ligature TrimMod Neologdn
  ModifierKind ChanomaModel CharSpec Spec NeoSpec CharsetFacts ConverterFacts SimpleFacts LigFacts TableFacts NeoFacts NeoProps
  ConverterProps SimpleProps PropsConverter PropsLig PropsNeo PropsPipeline NeoMore.

Lemma neo_ok o ch : chanoma_neologdn o = Ok ch -> forall dbg o' s out, normalize dbg o' ch s = Ok out <-> neologdn_result s out.
Proof. exact (C24_exact o ch). Qed.
Lemma preset_ok o ch : chanoma_preset o = Ok ch -> forall dbg o' s out, normalize dbg o' ch s = Ok out <-> pointwise preset_rel s out.
Proof.
  intros H dbg o' s out. destruct (C07_lemma o ch H dbg o' s) as (out' & E & P). rewrite E. split.
  - intros Q. apply Ok_inj in Q. congruence.
  - intros Q. f_equal. exact (preset_det _ _ _ P Q).
Qed.

(** ** C60 *)
(** The characters that play no part in neologdn form the same subsequence before and after... *)
Theorem C60_untouched_kept : forall o ch, chanoma_neologdn o = Ok ch -> forall dbg o' s out,
  normalize dbg o' ch s = Ok out -> forall f : char -> bool, (forall c, f c = true -> untouched c) -> filter f out = filter f s.
Proof. intros o ch H dbg o' s out E f Hf. apply (neo_ok o ch H) in E. apply kept_neo; assumption. Qed.
Print Assumptions C60_untouched_kept.
(** ... and they are exactly the characters whose number of occurrences never changes. *)
Theorem C60_untouched_exact : forall o ch, chanoma_neologdn o = Ok ch -> forall c,
  untouched c <-> forall dbg o' s out, normalize dbg o' ch s = Ok out -> occurrences c out = occurrences c s.
Proof.
  intros o ch H c. unfold occurrences. rewrite untouched_count. split.
  - intros U dbg o' s out E. apply U, (neo_ok o ch H dbg o'), E.
  - intros U s out R. apply (U false o s out). apply (neo_ok o ch H), R.
Qed.
Print Assumptions C60_untouched_exact.
Theorem C60_halfwidth_marks : untouched 0xFF9E%N /\ untouched 0xFF9F%N.
Proof. split; apply untouchedb_sound; vm_compute; reflexivity. Qed.
Print Assumptions C60_halfwidth_marks.
(** Half-width ka and voiced sound mark do not become ga. *)
Theorem C60_halfwidth_voiced_refuted : exists o ch, chanoma_neologdn o = Ok ch /\
  normalize false o ch [0xFF76; 0xFF9E]%N = Ok [0x30AB; 0xFF9E]%N /\ composes 0x30AB%N voiced_mark 0x30AC%N.
Proof.
  exists no_order, [MNeo NEO]. rewrite chanoma_neologdn_eq. split; [reflexivity|]. split; [vm_compute; reflexivity|].
  left. split; [reflexivity|]. split; [apply pair_mem_In; reflexivity|cbn; intuition discriminate].
Qed.
Print Assumptions C60_halfwidth_voiced_refuted.
(** Kanji, line feed and tab play no part; hiragana ka and ASCII letters do. *)
Example C60_case : untouched 0x6F22%N /\ untouched 0x0A%N /\ untouched 0x09%N /\ ~ untouched 0x304B%N /\ ~ untouched 0x41%N.
Proof.
  split; [|split; [|split; [|split]]]; try (apply untouchedb_sound; vm_compute; reflexivity).
  - intros (_ & _ & _ & _ & _ & U). destruct (U 0x304B%N voiced_mark 0x304C%N) as [N _]; [|apply N; reflexivity].
    left. split; [reflexivity|]. split; [apply pair_mem_In; reflexivity|cbn; intuition discriminate].
  - intros U. apply (untouched_not_alnum _ U). right; left. split; discriminate.
Qed.

(** ** C61 *)
Definition bytes (s : str) : nat := length (encode s).
Theorem C61_preset_length : forall o ch, chanoma_preset o = Ok ch -> forall dbg o' s out,
  normalize dbg o' ch s = Ok out -> length out = length s /\ bytes out <= bytes s.
Proof.
  intros o ch H dbg o' s out E. apply (preset_ok o ch H) in E. split.
  - clear -E. induction E; cbn; congruence.
  - unfold bytes. rewrite <- !weight_bytes. revert E. apply weight_pointwise. exact preset_bytes.
Qed.
Print Assumptions C61_preset_length.
Theorem C61_neologdn_length : forall o ch, chanoma_neologdn o = Ok ch -> forall dbg o' s out,
  normalize dbg o' ch s = Ok out -> length out <= length s /\ bytes out <= bytes s.
Proof.
  intros o ch H dbg o' s out E. apply (neo_ok o ch H) in E. split.
  - rewrite <- !weight_length. revert E. apply weight_neo; intros; lia.
  - unfold bytes. rewrite <- !weight_bytes. revert E. apply weight_neo; [exact neo_bytes|exact composes_bytes].
Qed.
Print Assumptions C61_neologdn_length.
(** Only a ligature translator can make a text longer. *)
Lemma modify_shrinks o m s out : constructible m -> (forall l, m <> MLig l) -> modify o m s = Ok out -> length out <= length s.
Proof.
  intros Hc Hl H. rewrite <- !weight_length. destruct m as [cc|el|c| |l| |n]; cbn [modify] in H.
  - rewrite conv_modify_eq in H. apply Ok_inj in H; subst. rewrite !weight_length, map_length. reflexivity.
  - apply Ok_inj in H; subst. rewrite elim_modify_filter. apply weight_filter.
  - apply Ok_inj in H. apply red_modify_spec in H. eapply weight_collapsed, H.
  - apply Ok_inj in H. apply dot_modify_spec in H. eapply weight_undotted, H.
  - destruct (Hl l eq_refl).
  - apply Ok_inj in H; subst. destruct (trim_modify_trimmed s) as (_ & _ & a & b & E). rewrite E at 2.
    rewrite (weight_app _ (repeat space a)), (weight_app _ (trim_modify s)). lia.
  - destruct (Hc n eq_refl) as (o' & Hn). apply neo_new_inv in Hn. subst n. rewrite neo_modify_eq in H. apply Ok_inj in H.
    apply neo_text_result in H. revert H. apply weight_neo; intros; lia.
Qed.
Theorem C61_pipeline_length : forall c, Forall constructible c -> (forall l, ~ In (MLig l) c) ->
  forall s out, result c s out -> length out <= length s.
Proof.
  intros c Hc Hl s out (o & H). unfold normalize in H. cbn [negb] in H. revert H. generalize 0 as i. revert s.
  induction Hc as [|m c Hm Hc IH]; intros s i H; cbn [normalize_fold] in H.
  - apply Ok_inj in H; subst. reflexivity.
  - apply bind_ok in H as (mid & H1 & H2). apply modify_shrinks in H1; [|exact Hm|intros l ->; apply (Hl l); left; reflexivity].
    apply IH in H2; [lia|]. intros l Hi. apply (Hl l). right; exact Hi.
Qed.
Print Assumptions C61_pipeline_length.
Theorem C61_ligature_longer_refuted : exists c s out, Forall constructible c /\ result c s out /\ length s < length out.
Proof.
  exists [MLig [(lit "a", lit "bc")]], (lit "a"), (lit "bc"). split; [constructor; [discriminate|constructor]|].
  split; [exists no_order; reflexivity|cbn; lia].
Qed.
Print Assumptions C61_ligature_longer_refuted.
(** A converter may need more bytes. *)
Theorem C61_converter_bytes_refuted : exists c s out, (forall l, ~ In (MLig l) c) /\ result c s out /\ bytes s < bytes out.
Proof.
  exists [MConv [(97, 0x3042)]%N], (lit "a"), [0x3042%N]. split; [intros l [E|[]]; discriminate|].
  split; [exists no_order; vm_compute; reflexivity|vm_compute; lia].
Qed.
Print Assumptions C61_converter_bytes_refuted.
Example C61_case : bytes [0xFF76; 0x309B; 0x7E; 0x3000; 0xFF21]%N = 13 /\
  normalize false no_order [MNeo NEO] [0xFF76; 0x309B; 0x7E; 0x3000; 0xFF21]%N = Ok [0x30AC; 0x41]%N /\ bytes [0x30AC; 0x41]%N = 4.
Proof. split; [reflexivity|]. split; [vm_compute; reflexivity|reflexivity]. Qed.

(** ** C62 *)
(** Preset before neologdn is neologdn on the text with full-width equals signs replaced... *)
Theorem C62_preset_then_neologdn : forall o c, run_calls o [UsePreset; UseNeologdn] chanoma_new = Ok c -> forall s out,
  result c s out <-> exists s', pointwise equals_sign s s' /\ neologdn_result s' out.
Proof.
  intros o c H s out. rewrite (C30_lemma _ _ _ _ H). cbn [effects call_effect]. split.
  - intros (m0 & H0 & mid & H1 & out' & H2 & ->). apply result_nil in H0. subst m0. exists (map eqs s).
    split; [apply eqs_pointwise; reflexivity|]. apply preset_then_neo. exists mid. auto.
  - intros (s' & E & R). apply eqs_pointwise in E. subst s'. apply preset_then_neo in R as (mid & H1 & H2).
    exists s. split; [apply result_nil; reflexivity|]. exists mid. split; [exact H1|]. exists out. auto.
Qed.
Print Assumptions C62_preset_then_neologdn.
(** ... and so is neologdn before preset: the two calls commute. *)
Theorem C62_commute : forall o o' c c', run_calls o [UsePreset; UseNeologdn] chanoma_new = Ok c ->
  run_calls o' [UseNeologdn; UsePreset] chanoma_new = Ok c' -> forall s out, result c s out <-> result c' s out.
Proof.
  intros o o' c c' H H' s out. rewrite (C62_preset_then_neologdn _ _ H). rewrite (C30_lemma _ _ _ _ H'). cbn [effects call_effect].
  split.
  - intros (s' & E & R). apply eqs_pointwise in E. subst s'. apply neo_then_preset in R as (mid & H1 & H2).
    exists s. split; [apply result_nil; reflexivity|]. exists mid. split; [exact H1|]. exists out. auto.
  - intros (m0 & H0 & mid & H1 & out' & H2 & ->). apply result_nil in H0. subst m0. exists (map eqs s).
    split; [apply eqs_pointwise; reflexivity|]. apply neo_then_preset. exists mid. auto.
Qed.
Print Assumptions C62_commute.
(** After neologdn the preset changes full-width equals signs only. *)
Theorem C62_preset_after_neologdn : forall o ch o1 pre, chanoma_neologdn o = Ok ch -> chanoma_preset o1 = Ok pre ->
  forall dbg o2 s mid, normalize dbg o2 ch s = Ok mid -> forall o3 out, normalize dbg o3 pre mid = Ok out <-> pointwise equals_sign mid out.
Proof.
  intros o ch o1 pre H H' dbg o2 s mid E o3 out. apply (C25_shape o ch H) in E as (Sh & _).
  rewrite (preset_ok o1 pre H'), eqs_pointwise. split.
  - intros P. exact (preset_det _ _ _ P (preset_on_shape _ Sh)).
  - intros ->. apply preset_on_shape, Sh.
Qed.
Print Assumptions C62_preset_after_neologdn.
(** The preset is not redundant beside neologdn. *)
Theorem C62_neologdn_includes_preset_refuted : exists o ch s t, chanoma_neologdn o = Ok ch /\
  normalize false o ch s = Ok s /\ pointwise preset_rel s t /\ t <> s.
Proof.
  exists no_order, [MNeo NEO], [0xFF1D%N], [0x3D%N]. rewrite chanoma_neologdn_eq. split; [reflexivity|]. split; [vm_compute; reflexivity|].
  split; [constructor; [left; exact equals_preset|constructor]|discriminate].
Qed.
Print Assumptions C62_neologdn_includes_preset_refuted.
Example C62_case : exists c, run_calls other_order [UsePreset; UseNeologdn] chanoma_new = Ok c /\
  normalize false no_order c [0xFF1D; 0xFF76; 0x309B; 0xFF5E]%N = Ok [0x3D; 0x30AC]%N.
Proof. exists [MConv PRESET; MNeo NEO]. split; [vm_compute; reflexivity|vm_compute; reflexivity]. Qed.

(** ** C63 *)
(** neologdn treats the parts between characters that play no part separately, e.g. lines. *)
Theorem C63_separated : forall o ch, chanoma_neologdn o = Ok ch -> forall dbg o1 o2 o3 a b x y c, untouched c ->
  normalize dbg o1 ch a = Ok x -> normalize dbg o2 ch b = Ok y -> normalize dbg o3 ch (a ++ [c] ++ b) = Ok (x ++ [c] ++ y).
Proof.
  intros o ch H dbg o1 o2 o3 a b x y c U A B. apply (neo_ok o ch H) in A. apply (neo_ok o ch H) in B.
  apply (neo_ok o ch H). apply neo_sep; assumption.
Qed.
Print Assumptions C63_separated.
(** Pipelines of converters and eliminators work on every part of a text separately... *)
Definition per_character (m : modifier) : Prop := (exists cc, m = MConv cc) \/ (exists el, m = MElim el).
Lemma per_character_fun c : Forall per_character c -> exists f : str -> str,
  (forall u v, f (u ++ v) = f u ++ f v) /\ forall o i s, normalize_fold o i c s = Ok (f s).
Proof.
  induction 1 as [|m c Hm _ (g & Hg & Hn)].
  - exists (fun s => s). split; reflexivity.
  - assert (M : exists f : str -> str, (forall u v, f (u ++ v) = f u ++ f v) /\ forall o s, modify o m s = Ok (f s)).
    { destruct Hm as [(cc & ->)|(el & ->)]; cbn [modify].
      - exists (map (conv1 cc)). split; [intros; apply map_app|]. intros o s. apply conv_modify_eq.
      - exists (elim_modify el). split; [|reflexivity]. intros u v. rewrite !elim_modify_filter. apply filter_app. }
    destruct M as (f & Hf & Hm'). exists (fun s => g (f s)). split; [intros u v; rewrite Hf, Hg; reflexivity|].
    intros o i s. cbn [normalize_fold]. rewrite Hm'. cbn [bind]. apply Hn.
Qed.
Theorem C63_concatenation : forall c, Forall per_character c -> forall a b out,
  result c (a ++ b) out <-> exists x y, result c a x /\ result c b y /\ out = x ++ y.
Proof.
  intros c Hc a b out. destruct (per_character_fun c Hc) as (f & Hf & Hn).
  assert (R : forall s o, result c s o <-> o = f s).
  { intros s o. unfold result, normalize. cbn [negb]. split.
    - intros (q & H). rewrite Hn in H. apply Ok_inj in H. congruence.
    - intros ->. exists no_order. apply Hn. }
  rewrite R, Hf. split.
  - intros ->. exists (f a), (f b). rewrite !R. auto.
  - intros (x & y & H1 & H2 & ->). apply R in H1, H2. congruence.
Qed.
Print Assumptions C63_concatenation.
(** ... the others do not. *)
Theorem C63_concatenation_refuted :
  (exists c a b x y, result [MRed c] a x /\ result [MRed c] b y /\ ~ result [MRed c] (a ++ b) (x ++ y)) /\
  (exists a b x y, result [MTrim] a x /\ result [MTrim] b y /\ ~ result [MTrim] (a ++ b) (x ++ y)) /\
  (exists a b x y, neologdn_result a x /\ neologdn_result b y /\ ~ neologdn_result (a ++ b) (x ++ y)).
Proof.
  split; [|split].
  - exists 97%N, (lit "a"), (lit "a"), (lit "a"), (lit "a"). split; [exists no_order; reflexivity|]. split; [exists no_order; reflexivity|].
    intros (o & H). vm_compute in H. discriminate.
  - exists (lit "a "), (lit "b"), (lit "a"), (lit "b"). split; [exists no_order; reflexivity|]. split; [exists no_order; reflexivity|].
    intros (o & H). vm_compute in H. discriminate.
  - exists [0x30AB%N], [0x309B%N], [0x30AB%N], [0x309B%N].
    assert (C : composes 0x30AB%N 0x309B%N 0x30AC%N).
    { left. split; [reflexivity|]. split; [apply pair_mem_In; reflexivity|cbn; intuition discriminate]. }
    destruct (composes_char _ _ _ C 0x30AB%N (or_introl eq_refl)) as (A1 & _). destruct (composes_char _ _ _ C 0x309B%N (or_intror eq_refl)) as (B1 & _).
    split; [apply neo_text_result; refine (eq_trans (neo_single _ _ (or_intror (conj eq_refl A1))) _); vm_compute; reflexivity|].
    split; [apply neo_text_result; refine (eq_trans (neo_single _ _ (or_intror (conj eq_refl B1))) _); vm_compute; reflexivity|].
    intros H. apply neo_text_result in H. cbn [app] in H. apply (eq_trans (eq_sym (neo_pair _ _ _ C))) in H. discriminate H.
Qed.
Print Assumptions C63_concatenation_refuted.
(** Two lines *)
Example C63_case : untouched 0x0A%N /\ Forall per_character [MConv [(97, 98)]%N; MElim [99%N]] /\
  normalize false no_order [MNeo NEO] [0xFF21; 0x20; 0x0A; 0x20; 0x30FC; 0x30FC]%N = Ok [0x41; 0x0A; 0x30FC]%N.
Proof.
  split; [apply untouchedb_sound; vm_compute; reflexivity|]. split; [|vm_compute; reflexivity].
  constructor; [left; eexists; reflexivity|]. constructor; [right; eexists; reflexivity|constructor].
Qed.

(** ** C64 *)
(** Ligature maps that cannot depend on the iteration order. *)
Definition order_safe (m : modifier) : Prop := forall l, m = MLig l -> length l <= 1 \/ (NoDup (map fst l) /\ non_interfering l).
Lemma safe_modify m : constructible m -> order_safe m -> forall o o' s, modify o m s = modify o' m s.
Proof.
  intros Hc Hs o o' s. destruct m as [cc|el|c| |l| |n]; cbn [modify]; try reflexivity.
  - rewrite !conv_modify_eq. reflexivity.
  - f_equal. destruct (Hs l eq_refl) as [L|[N I]].
    + destruct l as [|[k v] [|x l]]; cbn [length] in L; [|rewrite !lig_one; reflexivity|lia].
      unfold lig_modify. rewrite (Permutation_nil (hash_iter_perm o [])), (Permutation_nil (hash_iter_perm o' [])). reflexivity.
    + apply lig_modify_iff; [assumption..|]. apply lig_replaced; assumption.
  - destruct (Hc n eq_refl) as (o1 & Hn). apply neo_new_inv in Hn. subst n. rewrite !neo_modify_eq. reflexivity.
Qed.
Lemma safe_fold c : Forall constructible c -> Forall order_safe c -> forall o o' i i' s, normalize_fold o i c s = normalize_fold o' i' c s.
Proof.
  induction c as [|m c IH]; intros Hc Hs o o' i i' s; cbn [normalize_fold]; [reflexivity|].
  inversion Hc; subst. inversion Hs; subst. rewrite (safe_modify m) with (o' := sub o' i') by assumption.
  destruct (modify (sub o' i') m s); cbn [bind]; auto.
Qed.
Theorem C64_order_independent : forall c, Forall constructible c -> Forall order_safe c -> forall s, exists out,
  (forall o, normalize false o c s = Ok out) /\ (c <> [] -> forall o, normalize true o c s = Ok out).
Proof.
  intros c Hc Hs s. destruct (C32_lemma no_order c s Hc) as (out & E & _). exists out.
  assert (A : forall o, normalize false o c s = Ok out).
  { intros o. rewrite <- E. unfold normalize. cbn [negb]. apply safe_fold; assumption. }
  split; [exact A|]. intros N o. destruct (C32_lemma o c s Hc) as (out' & E1 & E2). rewrite E2. rewrite A in E1. apply Ok_inj in E1. subst out'.
  destruct c; [contradiction|reflexivity].
Qed.
Print Assumptions C64_order_independent.
Lemma safe_other m : match m with MLig _ => False | _ => True end -> order_safe m.
Proof. intros H l ->. destruct H. Qed.
Lemma call_shape o k c c' : run_call o k c = Ok c' -> exists m, c' = c ++ [m] /\ order_safe m.
Proof.
  destruct k as [| |t]; cbn [run_call].
  - unfold use_preset. rewrite all_characters_set_eq. cbn [bind]. intros H.
    apply Ok_inj in H; subst. eexists. split; [reflexivity|apply safe_other; exact I].
  - unfold use_neologdn. destruct (neologdn_new o) as [x| |]; cbn [bind]; intros H; [|discriminate H..].
    apply Ok_inj in H; subst. eexists. split; [reflexivity|apply safe_other; exact I].
  - unfold add_table. destruct (from_tables [t]) as [x| |]; cbn [bind]; intros H; [|discriminate H..].
    apply Ok_inj in H; subst. eexists. split; [reflexivity|apply safe_other; exact I].
Qed.
(** In particular everything built by the calls of the library interface. *)
Theorem C64_calls : forall o ks c, run_calls o ks chanoma_new = Ok c -> Forall constructible c /\ Forall order_safe c.
Proof.
  intros o ks c H. split; [apply (C30_constructible _ _ _ _ H); constructor|]. revert H.
  assert (N : Forall order_safe chanoma_new) by constructor. revert N. generalize chanoma_new as c0. revert o.
  induction ks as [|k ks IH]; intros o c0 N H; cbn [run_calls] in H; [apply Ok_inj in H; subst; exact N|].
  apply bind_ok in H as (c1 & H1 & H2). apply call_shape in H1 as (m & -> & Hm). apply (IH _ _ (proj2 (Forall_app _ _ _) (conj N (Forall_cons _ Hm (Forall_nil _)))) H2).
Qed.
Print Assumptions C64_calls.
Example C64_case : Forall constructible [MLig [(lit "aa", lit "a")]; MLig ex_lig; MTrim] /\ Forall order_safe [MLig [(lit "aa", lit "a")]; MLig ex_lig; MTrim] /\
  normalize true other_order [MLig [(lit "aa", lit "a")]; MLig ex_lig; MTrim] (lit " aaabcd ") = Ok (lit "aXYZ").
Proof.
  split; [repeat constructor; discriminate|]. split; [|vm_compute; reflexivity].
  constructor; [intros l E; injection E as <-; left; cbn; lia|]. constructor; [intros l E; injection E as <-; right; exact C21_case_hyps|].
  constructor; [intros l E; discriminate|constructor].
Qed.

(** ** C65 *)
Theorem C65_preset_ascii : forall o ch, chanoma_preset o = Ok ch -> forall dbg o' s, ascii s -> normalize dbg o' ch s = Ok s.
Proof.
  intros o ch H dbg o' s A. apply (preset_ok o ch H). apply conv_id. intros c t Hc. apply ascii_preset.
  unfold ascii in A. rewrite Forall_forall in A. apply A, Hc.
Qed.
Print Assumptions C65_preset_ascii.
(** On ASCII text neologdn removes tildes and the spaces not between letters or digits, nothing else. *)
Theorem C65_neologdn_ascii : forall o ch, chanoma_neologdn o = Ok ch -> forall dbg o' s, ascii s -> forall out,
  normalize dbg o' ch s = Ok out <-> exists mid, undotted None s mid /\ out = filter (fun c => negb (N.eqb c 0x7E)) mid.
Proof. intros o ch H dbg o' s A out. rewrite (neo_ok o ch H). apply neo_ascii, A. Qed.
Print Assumptions C65_neologdn_ascii.
(** Tilde removal comes after the handling of spaces, so a tilde beside a space drops the space. *)
Example C65_case : ascii (lit "a  b ~c -~!") /\
  normalize true no_order [MNeo NEO] (lit "a  b ~c -~!") = Ok (lit "a bc-!").
Proof. split; [repeat constructor; reflexivity|vm_compute; reflexivity]. Qed.
