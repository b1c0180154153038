(** C105: when two texts have the same result. *)
From Coq Require Import String.
From Verif Require Import Base Utf8 StrOps Converter Eliminator Reducer Dotted TrimMod Ligature Neologdn ModifierKind ChanomaModel
  CharSpec Spec BaseFacts CharsetFacts ConverterFacts ConverterProps SimpleFacts SimpleProps LigFacts NeoFacts NeoProps PropsConverter PropsNeo PropsPipeline PropsLig NeoMore
  CommProps PropsOrigin EditSpec EditFacts EditLig TableFacts PropsImage SameSpec SameFacts SameNeo.
Local Open Scope string_scope.
Local Open Scope list_scope.
Opaque neo_text.

Definition same_result (c : chanoma) (s t : str) : Prop := exists out, result c s out /\ result c t out.
Lemma same_iff m f : does m f -> forall s t, same_result [m] s t <-> f s = f t.
Proof.
  intros D s t. unfold same_result. split.
  - intros (out & A & B). apply D in A. apply D in B. congruence.
  - intros E. exists (f s). split; apply D; [reflexivity|exact E].
Qed.
Lemma same_kernel m (f g : str -> str) (change : str -> str -> Prop) : does m f -> (forall s t, valid_str s -> valid_str t -> change s t -> f s = f t) -> (forall s, valid_str s -> connected change s (g (f s))) ->
  forall s t, valid_str s -> valid_str t -> (same_result [m] s t <-> connected change s t).
Proof. intros D K N s t Vs Vt. rewrite (same_iff m f D). exact (con_kernel change f g K N s t Vs Vt). Qed.

Theorem C105_elimination : forall el s t, valid_str s -> valid_str t -> (same_result [MElim el] s t <-> connected (drop_one el) s t).
Proof.
  intros el. apply (same_kernel _ _ (fun s => s) _ (does_elim el)).
  - intros s t _ _ [x u v I]. rewrite !filter_app. cbn [filter]. rewrite (proj2 (mem_In N.eqb N.eqb_eq x el) I). reflexivity.
  - intros s V. exact (drop_all el s [] V).
Qed.
Print Assumptions C105_elimination.
Theorem C105_reduction : forall k s t, valid_str s -> valid_str t -> (same_result [MRed k] s t <-> connected (merge_two k) s t).
Proof.
  intros k. apply (same_kernel _ _ (fun s => s) _ (does_red k)).
  - intros s t _ _ [u v]. rewrite !(red_app k u). f_equal. generalize (match rev u with [] => false | c :: _ => N.eqb k c end). intros b. cbn [app red_rec]. rewrite N.eqb_refl. destruct b; reflexivity.
  - intros s V. apply (merge_all k s []); [discriminate|exact V].
Qed.
Print Assumptions C105_reduction.
Theorem C105_dotted : forall s t, valid_str s -> valid_str t -> (same_result [MDot] s t <-> connected close_gap s t).
Proof.
  apply (same_kernel _ _ (fun s => s) _ does_dot).
  - intros s t _ _ [u v N]. exact (close_keeps u v N).
  - intros s V. apply (close_all s [] SPACE false); [discriminate| |exact V]. intros _. split; [intros A; apply is_alnum_spec in A; discriminate A|intros E; destruct (ends_nil _ E)].
Qed.
Print Assumptions C105_dotted.
Theorem C105_trimming : forall s t, valid_str s -> valid_str t -> (same_result [MTrim] s t <-> connected peel s t).
Proof.
  apply (same_kernel _ _ (fun s => s) _ does_trim); [intros s t _ _; apply peel_keeps|exact peel_all].
Qed.
Print Assumptions C105_trimming.
(** Conversion tables without chains, a replacement being replaced by nothing else. *)
Lemma conv_same cc (R : char -> char -> Prop) : (forall c t, conv_get cc c = Some t <-> R c t) -> (forall a b b', R a b -> R b b' -> b' = b) -> (forall c t, R c t -> is_scalar t = true) ->
  forall s t, valid_str s -> valid_str t -> (same_result [MConv cc] s t <-> connected (exchange R) s t).
Proof.
  intros G F S. apply (same_kernel _ _ (fun s => s) _ (does_conv cc)).
  - intros s t _ _. apply exchange_keeps. intros c d E. unfold conv1. rewrite (proj2 (G c d) E). destruct (conv_get cc d) as [x|] eqn:Q; [|reflexivity]. apply G in Q. symmetry. exact (F _ _ _ E Q).
  - intros s V. apply (exchange_all R (conv1 cc)) with (u := []); [| |exact V].
    + intros c. unfold conv1. destruct (conv_get cc c) as [x|] eqn:Q; [right; apply G, Q|left; reflexivity].
    + intros c Vc. unfold conv1. destruct (conv_get cc c) as [x|] eqn:Q; [apply G in Q; exact (S _ _ Q)|exact Vc].
Qed.
Theorem C105_conversion : forall cc, NoDup (map fst cc) -> (forall a b b', In (a, b) cc -> In (b, b') cc -> b' = b) -> (forall c t, In (c, t) cc -> is_scalar t = true) ->
  forall s t, valid_str s -> valid_str t -> (same_result [MConv cc] s t <-> connected (exchange (fun c d => In (c, d) cc)) s t).
Proof. intros cc ND F S. apply conv_same; [intros c t; apply conv_get_iff, ND|exact F|exact S]. Qed.
Print Assumptions C105_conversion.
(** With a chain in the table, exchanging does show. *)
Theorem C105_chain_refuted : exists cc s t, NoDup (map fst cc) /\ valid_str s /\ valid_str t /\ connected (exchange (fun c d => In (c, d) cc)) s t /\ ~ same_result [MConv cc] s t.
Proof.
  exists [(97, 98); (98, 99)]%N, (lit "a"), (lit "b"). split; [repeat constructor; cbn; intuition discriminate|]. split; [repeat constructor|]. split; [repeat constructor|]. split.
  - apply con_do; [|repeat constructor]. apply (exchange_here _ 97%N 98%N [] []). left. reflexivity.
  - rewrite (same_iff _ _ (does_conv _)). vm_compute. discriminate.
Qed.
Print Assumptions C105_chain_refuted.
Lemma preset_scalars : forallb (fun p => is_scalar (snd p)) PRESET = true.
Proof. vm_compute. reflexivity. Qed.
Lemma preset_scalar c t : preset_rel c t -> is_scalar t = true.
Proof. intros R. apply PRESET_get, (hm_get_In N.eqb N.eqb_eq) in R. exact (proj1 (forallb_forall _ PRESET) preset_scalars (c, t) R). Qed.
Theorem C105_preset : forall o ch, chanoma_preset o = Ok ch -> forall s t, valid_str s -> valid_str t -> (same_result ch s t <-> connected (exchange preset_rel) s t).
Proof.
  intros o ch H. rewrite chanoma_preset_eq in H. apply Ok_inj in H. subst ch. apply (conv_same PRESET preset_rel PRESET_get).
  - intros a b b' A B. destruct (preset_rel_final _ _ _ A B).
  - intros c t R. exact (preset_scalar c t R).
Qed.
Print Assumptions C105_preset.
(** Ligature maps whose keys never share characters, with each other or with replacements. *)
Lemma does_ligatures l : NoDup (map fst l) -> non_interfering l -> does (MLig l) (lig_modify o_id l).
Proof.
  intros D N. apply does_of. intros o s. rewrite normalize_lig. f_equal. apply (replaced_det (rules l) (rules_det l D N) s); apply lig_replaced; assumption.
Qed.
Theorem C105_ligatures : forall l, NoDup (map fst l) -> non_interfering l -> separate l -> Forall (fun p => valid_str (snd p)) l ->
  forall s t, valid_str s -> valid_str t -> (same_result [MLig l] s t <-> connected (ligate l) s t).
Proof.
  intros l D N S V. apply (same_kernel _ _ (fun s => s) _ (does_ligatures l D N)).
  - intros s t _ _. apply ligate_keeps; assumption.
  - intros s Vs. apply (ligate_all l V s _ (lig_replaced o_id l s D N) [] Vs).
Qed.
Print Assumptions C105_ligatures.
(** Where a key overlaps itself, exchanging does show. *)
Theorem C105_overlap_refuted : exists l s t, NoDup (map fst l) /\ non_interfering l /\ valid_str s /\ valid_str t /\ connected (ligate l) s t /\ ~ same_result [MLig l] s t.
Proof.
  assert (ND : NoDup (map fst [(lit "aa", lit "b")])) by (repeat constructor; cbn; tauto).
  assert (NI : non_interfering [(lit "aa", lit "b")]).
  { split; [|split].
    - intros k v [E|[]]. injection E as <- <-. split; discriminate.
    - intros k v k' v' [E|[]] [E'|[]] N. injection E as <- <-. injection E' as <- <-. destruct N. reflexivity.
    - intros k v k' v' x [E|[]] [E'|[]] I I'. injection E as <- <-. injection E' as <- <-. cbn in I, I'. destruct I as [<-|[]]. destruct I' as [Q|[Q|[]]]; discriminate Q. }
  exists [(lit "aa", lit "b")], (lit "aaa"), (lit "ab"). split; [exact ND|]. split; [exact NI|]. split; [repeat constructor|]. split; [repeat constructor|]. split.
  - apply con_do; [|repeat constructor]. apply (ligate_here _ (lit "aa") (lit "b") (lit "a") []). left. reflexivity.
  - rewrite (same_iff _ _ (does_ligatures _ ND NI)). vm_compute. discriminate.
Qed.
Print Assumptions C105_overlap_refuted.
(** neologdn. *)
Lemma does_neologdn : does (MNeo NEO) neo_text.
Proof. apply does_of. intros. apply normalize_neo. Qed.
Theorem C105_neologdn : forall o ch, chanoma_neologdn o = Ok ch -> forall s t, valid_str s -> valid_str t -> (same_result ch s t <-> connected neologdn_change s t).
Proof.
  intros o ch H. rewrite chanoma_neologdn_eq in H. apply Ok_inj in H. rewrite <- H. intros s t Vs Vt. rewrite (same_iff _ _ does_neologdn). apply neo_kernel; assumption.
Qed.
Print Assumptions C105_neologdn.

(** A space and a tilde between two prolonged sound marks have the same result, a space and nothing do not;
    a full-width letter, a space among kana and a separate sound mark do not show. *)
Example C105_neologdn_same : forall o ch, chanoma_neologdn o = Ok ch ->
  same_result ch [0x30FC; 0x20; 0x30FC]%N [0x30FC; 0x7E; 0x30FC]%N /\ ~ same_result ch [0x30FC; 0x20; 0x30FC]%N [0x30FC; 0x30FC]%N /\
  same_result ch [0xFF21; 0x30AB; 0x20; 0x309B]%N [0x41; 0x30AC]%N.
Proof.
  intros o ch H. split; [|split].
  - assert (St : forall x, conv_get (neo_conv NEO) x = None -> settled [0x30FC%N; x; 0x30FC%N]).
    { intros x Nx c t I R. apply NEO_get in R. destruct I as [<-|[<-|[<-|[]]]]; [|congruence|]; vm_compute in R; discriminate R. }
    apply (C105_neologdn o ch H); [repeat constructor|repeat constructor|]. apply con_undo; [|repeat constructor]. apply nc_local; [apply St; vm_compute; reflexivity|apply St; vm_compute; reflexivity|].
    apply (nl_between 0x7E%N [] []). cbn. tauto.
  - rewrite chanoma_neologdn_eq in H. apply Ok_inj in H. rewrite <- H. rewrite (same_iff _ _ does_neologdn), !run_of. intros E. vm_compute in E. discriminate E.
  - rewrite chanoma_neologdn_eq in H. apply Ok_inj in H. rewrite <- H. rewrite (same_iff _ _ does_neologdn), !run_of. vm_compute. reflexivity.
Qed.
Example C105_dotted_same : connected close_gap (lit " a  b ") (lit "a b") /\ ~ connected close_gap (lit "a b") (lit "ab").
Proof.
  split.
  - apply C105_dotted; [repeat constructor|repeat constructor|]. apply (same_iff _ _ does_dot). vm_compute. reflexivity.
  - intros H. apply C105_dotted in H; [|repeat constructor|repeat constructor]. apply (same_iff _ _ does_dot) in H. vm_compute in H. discriminate H.
Qed.
Example C105_trim_same : connected peel (lit " a b ") (lit "a b") /\ ~ connected peel (lit "a b") (lit "ab").
Proof.
  split.
  - apply C105_trimming; [repeat constructor|repeat constructor|]. apply (same_iff _ _ does_trim). vm_compute. reflexivity.
  - intros H. apply C105_trimming in H; [|repeat constructor|repeat constructor]. apply (same_iff _ _ does_trim) in H. vm_compute in H. discriminate H.
Qed.
Example C105_reduce_same : connected (merge_two 97%N) (lit "aaab") (lit "ab") /\ connected (drop_one (lit "xy")) (lit "xayb") (lit "abx").
Proof.
  split.
  - apply C105_reduction; [repeat constructor|repeat constructor|]. apply (same_iff _ _ (does_red _)). vm_compute. reflexivity.
  - apply C105_elimination; [repeat constructor|repeat constructor|]. apply (same_iff _ _ (does_elim _)). vm_compute. reflexivity.
Qed.
Example C105_ligature_map : NoDup (map fst [(lit "ab", lit "x")]) /\ non_interfering [(lit "ab", lit "x")] /\ separate [(lit "ab", lit "x")] /\ Forall (fun p => valid_str (snd p)) [(lit "ab", lit "x")].
Proof.
  split; [repeat constructor; cbn; tauto|]. split; [split; [|split]|split].
  - intros k v [E|[]]. injection E as <- <-. split; discriminate.
  - intros k v k' v' [E|[]] [E'|[]] N. injection E as <- <-. injection E' as <- <-. destruct N. reflexivity.
  - intros k v k' v' x [E|[]] [E'|[]] I I'. injection E as <- <-. injection E' as <- <-. cbn in I, I'. destruct I as [<-|[]]. destruct I' as [Q|[Q|[]]]; discriminate Q.
  - intros s k v k' v' i j [E|[]] [E'|[]] O O'. injection E as <- <-. injection E' as <- <-. apply occurs_at_iff in O as [_ O], O' as [_ O'].
    destruct (Nat.eq_dec i j) as [->|N]; [left; auto|]. right. cbn [List.length lit] in *.
    assert (Nth : forall n, firstn 2 (skipn n s) = lit "ab" -> nth_error s n = Some 97%N /\ nth_error s (S n) = Some 98%N).
    { clear. induction s as [|c s IH]; intros n Q; [destruct n; discriminate Q|]. destruct n as [|n]; [|apply IH; exact Q]. destruct s as [|d s]; [discriminate Q|]. cbn in Q. injection Q as -> ->. split; reflexivity. }
    apply Nth in O as [A B]. apply Nth in O' as [A' B']. change (List.length (lit "ab")) with 2. destruct (Nat.eq_dec (S i) j) as [<-|N1]; [congruence|]. destruct (Nat.eq_dec (S j) i) as [<-|N2]; [congruence|]. lia.
  - repeat constructor.
Qed.
