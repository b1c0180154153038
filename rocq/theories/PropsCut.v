(** C109: where a text may be cut. *)
From Coq Require Import String.
From Verif Require Import Base Utf8 StrOps Converter Eliminator Reducer Dotted TrimMod Ligature Neologdn ModifierKind ChanomaModel
  CharSpec Spec BaseFacts CharsetFacts ConverterFacts ConverterProps SimpleFacts SimpleProps LigFacts NeoFacts NeoProps PropsConverter PropsNeo PropsPipeline PropsLig NeoMore
  CommProps PropsOrigin EditSpec EditFacts EditLig TableFacts SameSpec SameFacts SameNeo PropsSame CutSpec CutFacts.
Local Open Scope string_scope.
Local Open Scope list_scope.
Opaque neo_text.

(** Normalizing the two parts and joining the results is normalizing the whole. *)
Definition pieces (c : chanoma) (a b : str) : Prop := forall x y, result c a x -> result c b y -> result c (a ++ b) (x ++ y).
Definition ligatures_well (m : modifier) : Prop := forall l, m = MLig l -> NoDup (map fst l) /\ non_interfering l /\ separate l.
Lemma pieces_iff m f : does m f -> forall a b, pieces [m] a b <-> f (a ++ b) = f a ++ f b.
Proof.
  intros D a b. split.
  - intros P. symmetry. apply D, P; apply D; reflexivity.
  - intros E x y X Y. apply D in X. apply D in Y. subst x y. apply D. symmetry. exact E.
Qed.
Lemma neo_conv_pointwise s : pointwise neologdn_rel s (neo_conv_text s).
Proof. unfold neo_conv_text. apply conv1_rel. exact NEO_get. Qed.
Lemma neo_pieces a b a' b' : pointwise neologdn_rel a a' -> pointwise neologdn_rel b b' ->
  (pieces [MNeo NEO] a b <-> ~ ((ends_in (eq prolonged_mark) a' /\ begins_in (eq prolonged_mark) b') \/ word_gap a' b' \/ mark_gap a' b')).
Proof.
  intros A B. rewrite (pieces_iff _ _ does_neologdn), !run_of. assert (E : neo_conv_text (a ++ b) = neo_conv_text a ++ neo_conv_text b) by apply map_app. rewrite E.
  assert (U : forall s t, pointwise neologdn_rel s t -> neo_conv_text s = t).
  { intros s t H. symmetry. exact (conv1_rel_unique _ _ NEO_get _ _ H). }
  rewrite (U _ _ A), (U _ _ B). apply neo_cut; [exact is_base_iff|exact mate_of_iff|exact base_tilde].
Qed.
Lemma iff_inv (P Q : Prop) : (P <-> Q) -> (~ P <-> ~ Q).
Proof. tauto. Qed.

(** Exactly the cuts described by [torn] show. *)
Theorem C109_cut : forall m, constructible m -> ligatures_well m -> forall a b, pieces [m] a b <-> ~ torn m a b.
Proof.
  intros m C L a b. destruct m as [cc|el|k| |l| |n].
  - rewrite (pieces_iff _ _ (does_conv cc)). split; [intros _ X; inversion X|intros _; apply map_app].
  - rewrite (pieces_iff _ _ (does_elim el)). split; [intros _ X; inversion X|intros _; apply filter_app].
  - rewrite (pieces_iff _ _ (does_red k)), red_cut. apply iff_inv. split; [intros [E B]; constructor; assumption|intros X; inversion X; auto].
  - rewrite (pieces_iff _ _ does_dot), dot_cut. apply iff_inv. split; [intros G; constructor; exact G|intros X; inversion X; assumption].
  - destruct (L l eq_refl) as (ND & NI & S). rewrite (pieces_iff _ _ (does_ligatures l ND NI)), (lig_cut l ND NI S). apply iff_inv. split; [intros G; constructor; exact G|intros X; inversion X; assumption].
  - rewrite (pieces_iff _ _ does_trim), trim_cut. apply iff_inv. split; [intros (A & B & G); constructor; assumption|intros X; inversion X; auto].
  - destruct (C n eq_refl) as (o & H). rewrite neologdn_new_eq in H. apply Ok_inj in H. rewrite <- H. rewrite (neo_pieces a b _ _ (neo_conv_pointwise a) (neo_conv_pointwise b)). apply iff_inv. split.
    + intros G. econstructor; [apply neo_conv_pointwise|apply neo_conv_pointwise|exact G].
    + intros X. inversion X as [| | | |n' x y a' b' A B G]; subst. rewrite (conv1_rel_unique _ _ NEO_get _ _ A), (conv1_rel_unique _ _ NEO_get _ _ B) in G. exact G.
Qed.
Print Assumptions C109_cut.
(** neologdn, spelt out: only three things across a cut show. *)
Theorem C109_neologdn : forall o ch, chanoma_neologdn o = Ok ch -> forall a b a' b', pointwise neologdn_rel a a' -> pointwise neologdn_rel b b' ->
  (pieces ch a b <-> ~ (ends_in (eq prolonged_mark) a' /\ begins_in (eq prolonged_mark) b') /\ ~ word_gap a' b' /\ ~ mark_gap a' b').
Proof.
  intros o ch H a b a' b' A B. rewrite chanoma_neologdn_eq in H. apply Ok_inj in H. rewrite <- H. rewrite (neo_pieces a b a' b' A B). tauto.
Qed.
Print Assumptions C109_neologdn.
(** Of a ligature map with keys that overlap themselves, one direction holds... *)
Theorem C109_ligatures : forall l, NoDup (map fst l) -> non_interfering l -> forall a b, ~ key_across l a b -> pieces [MLig l] a b.
Proof.
  intros l ND NI a b X. apply (pieces_iff _ _ (does_ligatures l ND NI)). apply (replaced_det (rules l) (rules_det l ND NI) (a ++ b)); [apply lig_replaced; assumption|]. apply lig_joined; [apply lig_replaced; assumption|apply lig_replaced; assumption|exact X].
Qed.
Print Assumptions C109_ligatures.
(** ... and the other does not: a key across the cut need not show. *)
Theorem C109_overlap_refuted : exists l a b, NoDup (map fst l) /\ non_interfering l /\ key_across l a b /\ pieces [MLig l] a b.
Proof.
  assert (ND : NoDup (map fst [(lit "aa", lit "b")])) by (repeat constructor; cbn; tauto).
  assert (NI : non_interfering [(lit "aa", lit "b")]).
  { split; [|split].
    - intros k v [E|[]]. injection E as <- <-. split; discriminate.
    - intros k v k' v' [E|[]] [E'|[]] N. congruence.
    - intros k v k' v' x [E|[]] [E'|[]] I. injection E as <- <-. injection E' as <- <-. destruct I as [<-|[]]. intros [D|[D|[]]]; discriminate D. }
  exists [(lit "aa", lit "b")], (lit "aa"), (lit "a"). split; [exact ND|]. split; [exact NI|]. split.
  - change (lit "aa") with (lit "a" ++ lit "a") at 2. change (lit "a") with (lit "a" ++ []) at 3. econstructor; [left; reflexivity|reflexivity|discriminate|discriminate].
  - apply (pieces_iff _ _ (does_ligatures _ ND NI)). vm_compute. reflexivity.
Qed.
Print Assumptions C109_overlap_refuted.

(** A cut that no stage shows does not show in the result of a pipeline... *)
Theorem C109_pipeline : forall c, Forall constructible c -> Forall ligatures_well c -> forall a b, unseen (fun m => result [m]) c a b -> pieces c a b.
Proof.
  intros c C L a b U. induction U as [a b|m c a b x y N A B U IH].
  - intros x y (o & X) (o' & Y). exists no_order. unfold normalize in *. cbn [negb normalize_fold] in *. congruence.
  - inversion C as [|? ? Cm Cc]; subst. inversion L as [|? ? Lm Lc]; subst. specialize (IH Cc Lc). pose proof (proj2 (C109_cut m Cm Lm a b) N x y A B) as AB. intros u v Hu Hv.
    assert (F : exists f, does m f).
    { destruct m as [cc|el|k| |l| |n]; eexists; [apply does_conv|apply does_elim|apply does_red|apply does_dot|destruct (Lm l eq_refl) as (ND & NI & _); apply (does_ligatures l ND NI)|apply does_trim|].
      destruct (Cm n eq_refl) as (o & H). rewrite neologdn_new_eq in H. apply Ok_inj in H. rewrite <- H. apply does_neologdn. }
    destruct F as (f & D). change (m :: c) with ([m] ++ c) in *. apply result_app in Hu as (x' & X & Hu). apply result_app in Hv as (y' & Y & Hv). apply D in A. apply D in B. apply D in X. apply D in Y. subst x' y'. rewrite <- A in Hu. rewrite <- B in Hv.
    apply result_app. exists (x ++ y). split; [exact AB|]. exact (IH u v Hu Hv).
Qed.
Print Assumptions C109_pipeline.
(** ... though a later stage can hide a cut an earlier one shows. *)
Theorem C109_hidden_refuted : exists c a b, pieces c a b /\ ~ unseen (fun m => result [m]) c a b.
Proof.
  exists [MRed 97%N; MElim [97%N]], (lit "a"), (lit "a"). split.
  - intros x y (o & X) (o' & Y). vm_compute in X, Y. apply Ok_inj in X. apply Ok_inj in Y. subst x y. exists no_order. vm_compute. reflexivity.
  - intros U. inversion U as [|m c a b x y N]; subst. apply N. constructor; [exists 97%N; auto|exists 97%N; auto].
Qed.
Print Assumptions C109_hidden_refuted.

(** Cases: a word boundary, a sound mark after a blank, and a cut inside a word. *)
Example C109_case : forall o ch, chanoma_neologdn o = Ok ch ->
  ~ pieces ch (lit "to ") (lit "be") /\ ~ pieces ch [0x304B; 0x20]%N [0x7E; 0x309B]%N /\ pieces ch (lit "t") (lit "o be") /\ pieces ch (lit "a ") [0x304B%N] /\ ~ pieces ch [0xFF70%N] [0x30FC%N].
Proof.
  intros o ch H. rewrite chanoma_neologdn_eq in H. apply Ok_inj in H. rewrite <- H. rewrite !(pieces_iff _ _ does_neologdn). split; [|split; [|split; [|split]]]; vm_compute; try reflexivity; discriminate.
Qed.
Example C109_case_pipeline : unseen (fun m => result [m]) [MRed 97%N; MDot] (lit "aa") (lit "b aa") /\ torn MTrim (lit "a") (lit " b").
Proof.
  split.
  - econstructor.
    + intros X. inversion X as [k a b E B| | | |]; subst. destruct B as (c & B & <-). discriminate B.
    + exists no_order. vm_compute. reflexivity.
    + exists no_order. vm_compute. reflexivity.
    + econstructor; [|exists no_order; vm_compute; reflexivity|exists no_order; vm_compute; reflexivity|constructor].
      apply (proj1 (C109_cut MDot ltac:(discriminate) ltac:(discriminate) _ _)). apply (pieces_iff _ _ does_dot). reflexivity.
  - constructor; [constructor; discriminate|constructor 2; constructor; discriminate|right; exists space; auto].
Qed.
