(** Property C95: looking for a normalised text in a normalised text. *)
From Verif Require Import Base BaseFacts Utf8 StrOps Position Converter Eliminator Reducer Dotted Ligature TrimMod Neologdn ModifierKind
  ChanomaModel Spec NeoSpec CharsetFacts ConverterFacts SimpleFacts LigFacts TableFacts NeoFacts NeoProps NeoMore
  ConverterProps SimpleProps PropsConverter PropsLig PropsNeo PropsPipeline PropsNeoMore CommProps SearchSpec SearchProps.
From Coq Require Import String.
Local Open Scope string_scope.
Local Open Scope list_scope.

(** ** Pipelines as functions *)
Lemma stage_function m : local_stage m -> exists f, does m f /\ forward f /\ (plain_stage m -> cuttable f).
Proof.
  destruct m as [cc|el|k| |l| |n]; intros H; try destruct H.
  - exists (map (conv1 cc)). split; [apply does_conv|]. split; [apply forward_map|intros _; apply cuttable_map].
  - eexists. split; [apply does_elim|]. split; [apply forward_filter|intros _; apply cuttable_filter].
  - eexists. split; [apply does_red|]. split; [apply forward_red|intros _; apply cuttable_red].
  - eexists. split; [apply does_dot|]. split; [apply forward_dot|intros []].
  - eexists. split; [apply does_trim|]. split; [apply forward_trim|intros []].
Qed.
Lemma pipeline_function c : Forall local_stage c -> exists f, (forall s out, result c s out <-> out = f s) /\ forward f /\
  (Forall plain_stage c -> cuttable f).
Proof.
  induction 1 as [|m c Hm _ (g & G1 & G2 & G3)].
  - exists (fun s => s). split; [apply result_nil|]. split; [apply forward_id|intros _; apply cuttable_id].
  - destruct (stage_function m Hm) as (f & F1 & F2 & F3). exists (fun s => g (f s)). split.
    + intros s out. change (m :: c) with ([m] ++ c). rewrite result_app. split.
      * intros (mid & A & B). apply F1 in A. apply G1 in B. congruence.
      * intros ->. exists (f s). split; [apply F1|apply G1]; reflexivity.
    + split; [apply forward_comp; assumption|]. intros H. inversion H; subst. apply cuttable_comp; auto.
Qed.
Lemma plain_local c : Forall plain_stage c -> Forall local_stage c.
Proof. apply Forall_impl. intros [cc|el|k| |l| |n]; cbn; auto. Qed.
Lemma occurs_iff (q s : str) : occurs q s <-> exists a b, s = a ++ q ++ b.
Proof. split; [intros (i & a & b & E & _); eauto|intros (a & b & E); exists (List.length a), a, b; auto]. Qed.

(** Whatever occurs in a text is still found after both have been normalised. *)
Theorem C95_found : forall c, Forall local_stage c -> forall q s x y, result c q x -> result c s y ->
  (occurs q s -> occurs x y) /\ (prefix_of q s -> prefix_of x y) /\ (suffix_of q s -> suffix_of x y).
Proof.
  intros c H q s x y X Y. destruct (pipeline_function c H) as (f & F & L & _). apply F in X, Y. subst x y. split; [|split].
  - intros O. apply occurs_iff in O as (a & b & ->). apply occurs_iff. destruct (forward_inside f L a q b) as (A & B & E). eauto.
  - intros (b & ->). destruct (proj1 L q b) as (B & E). exists B. exact E.
  - intros (a & ->). destruct (proj2 L a q) as (A & E). exists A. exact E.
Qed.
Print Assumptions C95_found.
(** Conversions, eliminations and reductions, then perhaps a trim or an elimination of dotted spaces: a match found in
    the normalised text is the normal form of a part of the original text. *)
Theorem C95_found_iff : forall c l, Forall plain_stage c -> l = [] \/ l = [MTrim] \/ l = [MDot] ->
  forall q s x y, result (c ++ l) q x -> result (c ++ l) s y ->
  (occurs x y <-> exists q', occurs q' s /\ result (c ++ l) q' x).
Proof.
  intros c l Hc Hl q s x y X Y. assert (Lc : Forall local_stage (c ++ l)).
  { apply Forall_app. split; [apply plain_local, Hc|]. destruct Hl as [->|[->| ->]]; repeat constructor. }
  split; [|intros (q' & O & R); exact (proj1 (C95_found _ Lc q' s x y R Y) O)].
  destruct (pipeline_function c (plain_local c Hc)) as (f & F & _ & Cf). specialize (Cf Hc).
  assert (G : exists g, (forall s out, result l s out <-> out = g s) /\ last_stage g).
  { destruct Hl as [->|[->| ->]].
    - exists (fun s => s). split; [apply result_nil|]. intros s0 q0 A B ->. eauto.
    - exists trim_modify. split; [apply does_trim|apply last_trim].
    - exists (dot_rec SPACE false). split; [apply does_dot|]. intros s0 q0 A B E.
      assert (Bq : spaces_between (dot_rec SPACE false q0)) by (rewrite <- dot_modify_rec; apply dot_modify_between).
      destruct (spaces_between_ends _ Bq) as [B1 B2]. exact (dot_part s0 A _ B E B1 B2). }
  destruct G as (g & G & Lg).
  assert (FG : forall s out, result (c ++ l) s out <-> out = g (f s)).
  { intros s0 out. rewrite result_app. split.
    - intros (mid & A & B). apply F in A. apply G in B. congruence.
    - intros ->. exists (f s0). split; [apply F|apply G]; reflexivity. }
  apply FG in X, Y. subst x y. intros O. apply occurs_iff in O as (A & B & E).
  destruct (Lg _ _ _ _ E) as (a & q1 & b & E1 & E2). destruct (cuttable_inside f Cf _ _ _ _ E1) as (a' & q' & b' & -> & E3).
  exists q'. split; [apply occurs_iff; eauto|]. apply FG. rewrite E3. symmetry. exact E2.
Qed.
Print Assumptions C95_found_iff.
(** The preset is one conversion. *)
Theorem C95_preset : forall o ch, chanoma_preset o = Ok ch -> forall q s x y, result ch q x -> result ch s y ->
  (occurs x y <-> exists q', occurs q' s /\ result ch q' x).
Proof.
  intros o ch H q s x y. rewrite chanoma_preset_eq in H. apply Ok_inj in H. subst ch. rewrite <- (app_nil_r [MConv PRESET]).
  apply C95_found_iff; [repeat constructor|left; reflexivity].
Qed.
Print Assumptions C95_preset.
(** With the trim before a conversion the second claim fails: a match may come from no part. *)
Theorem C95_early_trim_refuted : exists c q s x y, Forall local_stage c /\ result c q x /\ result c s y /\ occurs x y /\
  ~ exists q', occurs q' s /\ result c q' x.
Proof.
  exists [MTrim; MConv [(32, 95)]]%N, (lit "_"), (lit "a b"), (lit "_"), (lit "a_b"). split; [repeat constructor|].
  split; [exists no_order; reflexivity|]. split; [exists no_order; reflexivity|]. split; [exists 1, (lit "a"), (lit "b"); auto|].
  intros (q' & (i & a & b & E & _) & R). change [MTrim; MConv [(32%N, 95%N)]] with ([MTrim] ++ [MConv [(32%N, 95%N)]]) in R.
  apply result_app in R as (mid & R1 & R2). apply does_trim in R1. apply does_conv in R2. subst mid.
  change (lit "a b") with [97; 32; 98]%N in E.
  destruct a as [|a1 [|a2 [|a3 [|a4 a]]]]; cbn [app] in E; destruct q' as [|c1 [|c2 [|c3 [|c4 q']]]]; cbn [app] in E; try discriminate E;
    try (injection E; intros; subst); try discriminate; vm_compute in R2; discriminate R2.
Qed.
Print Assumptions C95_early_trim_refuted.
(** A ligature replacement may rewrite what was to be found, and may produce what was never there. *)
Theorem C95_ligature_refuted :
  (exists m q s x y, result [m] q x /\ result [m] s y /\ occurs q s /\ ~ occurs x y /\ exists k v, m = MLig [(k, v)] /\ k <> [] /\ v <> []) /\
  (exists m q s x y, result [m] q x /\ result [m] s y /\ occurs x y /\ (forall q', occurs q' s -> ~ result [m] q' x) /\
    exists k v, m = MLig [(k, v)] /\ k <> [] /\ v <> []).
Proof.
  split.
  - exists (MLig [(lit "ab", lit "c")]), (lit "a"), (lit "ab"), (lit "a"), (lit "c").
    split; [exists no_order; reflexivity|]. split; [exists no_order; reflexivity|]. split; [exists 0, [], (lit "b"); auto|]. split.
    + intros (i & a & b & E & _). destruct a as [|a1 [|a2 a]]; discriminate.
    + exists (lit "ab"), (lit "c"). repeat split; discriminate.
  - exists (MLig [(lit "a", lit "bc")]), (lit "b"), (lit "a"), (lit "b"), (lit "bc").
    split; [exists no_order; reflexivity|]. split; [exists no_order; reflexivity|]. split; [exists 0, [], (lit "c"); auto|]. split.
    + intros q' (i & a & b & E & _) (o & R). change (lit "a") with [97]%N in E.
      destruct a as [|a1 [|a2 a]]; cbn [app] in E; destruct q' as [|c1 [|c2 q']]; try discriminate E;
        try (vm_compute in R; discriminate R); injection E; intros; subst; try discriminate; vm_compute in R; discriminate R.
    + exists (lit "a"), (lit "bc"). repeat split; discriminate.
Qed.
Print Assumptions C95_ligature_refuted.

(** ** Neologdn *)
Lemma neo_results o ch : chanoma_neologdn o = Ok ch -> forall s out, result ch s out <-> neologdn_result s out.
Proof.
  intros H s out. split; [intros (o' & E); apply (neo_ok o ch H) in E; exact E|]. intros R. exists no_order. apply (neo_ok o ch H), R.
Qed.
(** A text is found when neither it nor what follows the occurrence begins with a sound mark, a prolonged sound mark,
    a space or a tilde. *)
Theorem C95_neologdn_found : forall o ch, chanoma_neologdn o = Ok ch -> forall a q b x y,
  ordinary_start q -> ordinary_start b -> result ch q x -> result ch (a ++ q ++ b) y ->
  occurs x y /\ (a = [] -> prefix_of x y) /\ (b = [] -> suffix_of x y).
Proof.
  intros o ch H a q b x y Hq Hb X Y. apply (neo_results o ch H) in X, Y.
  destruct (neo_found a q b x y Hq Hb X Y) as (A & B & E & NA & NB). split; [apply occurs_iff; eauto|]. split; intros Z.
  - exists B. rewrite E, (NA Z). reflexivity.
  - exists A. rewrite E, (NB Z), app_nil_r. reflexivity.
Qed.
Print Assumptions C95_neologdn_found.
Lemma special_conv : forallb (fun e => implb (existsb (N.eqb (snd e)) special_chars) (existsb (N.eqb (fst e)) special_chars)) (neo_conv NEO) = true.
Proof. vm_compute. reflexivity. Qed.
Lemma special_result : forallb (fun c => match neo_text [c] with [] => true | [t] => existsb (N.eqb t) [prolonged_mark; voiced_mark; semivoiced_mark] | _ => false end)
  special_chars = true.
Proof. vm_compute. reflexivity. Qed.
(** Exactly these characters are not ordinary. *)
Theorem C95_ordinary : forall c, ordinary c <-> ~ In c special_chars.
Proof.
  intros c. split.
  - intros (t & R & P & M) I. apply neo_text_result in R. pose proof special_result as S. rewrite forallb_forall in S. specialize (S c I).
    rewrite R in S. apply existsb_exists in S as (u & [<-|[<-|[<-|[]]]] & E); apply N.eqb_eq in E; [exact (P E)|apply M; left; exact E|apply M; right; exact E].
  - intros N. set (t := conv1 (neo_conv NEO) c).
    assert (Nt : ~ In t special_chars).
    { unfold t, conv1. destruct (conv_get (neo_conv NEO) c) as [u|] eqn:G; [|exact N]. intros I. apply N.
      pose proof special_conv as S. rewrite forallb_forall in S. apply NEO_get, NEO_rel in G. specialize (S _ G). cbn [fst snd] in S.
      rewrite (proj2 (existsb_exists (N.eqb u) special_chars)) in S by (exists u; split; [exact I|apply N.eqb_refl]).
      cbn [implb] in S. apply existsb_exists in S as (z & Iz & Ez). apply N.eqb_eq in Ez. subst z. exact Iz. }
    assert (T : not_tilde t = true).
    { apply not_tilde_true. intros I. apply Nt. unfold special_chars. rewrite !in_app_iff. auto. }
    assert (Sp : t <> SPACE) by (intros E; apply Nt; rewrite E; left; reflexivity).
    exists t. split; [|split].
    + apply neo_result_mid. unfold neo_mid. cbn [map]. fold t.
      assert (E : red_rec CHOONPU false [t] = [t]) by (cbn [red_rec]; destruct (N.eqb CHOONPU t); reflexivity).
      rewrite E. cbn [dot_rec]. destruct (N.eqb_spec t SPACE); [contradiction|]. cbn [app filter]. rewrite T.
      apply rep_miss; [|constructor]. intros k v (a & m & t' & -> & _) (r & Er). discriminate.
    + intros E. apply Nt. rewrite E. right. right. left. reflexivity.
    + intros [E|E]; apply Nt; rewrite E; [do 3 right|do 4 right]; left; reflexivity.
Qed.
Print Assumptions C95_ordinary.
(** Without the condition it may not be found: a kana followed by its sound mark becomes another kana. *)
Theorem C95_neologdn_found_refuted : forall o ch, chanoma_neologdn o = Ok ch -> exists q s x y,
  result ch q x /\ result ch s y /\ occurs q s /\ ~ occurs x y.
Proof.
  intros o ch H. exists [0xFF76%N], [0xFF76; 0x309B]%N, [0x30AB%N], [0x30AC%N].
  split; [apply (neo_results o ch H), neo_text_result; vm_compute; reflexivity|].
  split; [apply (neo_results o ch H), neo_text_result; vm_compute; reflexivity|]. split; [exists 0, [], [0x309B%N]; auto|].
  intros (i & a & b & E & _). destruct a as [|a1 [|a2 a]]; discriminate.
Qed.
Print Assumptions C95_neologdn_found_refuted.
(** A match found in the normalised text is always the normal form of a part of the original text. *)
Theorem C95_neologdn_match : forall o ch, chanoma_neologdn o = Ok ch -> forall q s x y, result ch q x -> result ch s y ->
  occurs x y -> exists q', occurs q' s /\ result ch q' x.
Proof.
  intros o ch H q s x y X Y O. apply (neo_results o ch H) in X, Y. apply occurs_iff in O as (A & B & E).
  destruct (neo_back q s x y A B X Y E) as (a & q' & b & -> & R). exists q'. split; [apply occurs_iff; eauto|].
  apply (neo_results o ch H), R.
Qed.
Print Assumptions C95_neologdn_match.
(** Full-width [A], a space and [B] looked up in a longer text through a reduction and an elimination of dotted spaces. *)
Example C95_case : exists c q s x y, Forall local_stage c /\ result c q x /\ result c s y /\ occurs q s /\ q <> [] /\ x <> q /\ y <> s /\
  x = lit "a b" /\ y = lit "-a bx" /\ ordinary 0x3042%N /\ ~ ordinary 0x309B%N.
Proof.
  exists [MConv [(0xFF21, 97)]; MRed 45; MDot]%N, ([0xFF21; 32; 32; 98]%N), (lit "-- " ++ [0xFF21; 32; 32; 98; 120]%N), (lit "a b"), (lit "-a bx").
  split; [repeat constructor|]. split; [exists no_order; reflexivity|]. split; [exists no_order; reflexivity|].
  split; [exists 3, (lit "-- "), (lit "x"); auto|]. do 3 (split; [discriminate|]). do 2 (split; [reflexivity|]). split.
  - apply C95_ordinary. unfold special_chars, dash_variants, tilde_variants. cbn. intuition discriminate.
  - rewrite C95_ordinary. intros N. apply N. unfold special_chars. right; right; right; left. reflexivity.
Qed.
