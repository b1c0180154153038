(** C98: the presets and the width variants of Unicode. *)
From Verif Require Import Base StrOps Converter Neologdn ModifierKind ChanomaModel Spec WidthSpec BaseFacts ConverterFacts
  TableFacts CharsetFacts NeoFacts NeoProps ConverterProps PropsConverter PropsNeo PropsNeoMore PropsPipeline PropsRepeat.

Definition leftb (c : char) : bool :=
  existsb (N.eqb c) [0xFF02; 0xFF07; 0xFF5E; 0xFF5F; 0xFF60; 0xFF70; 0xFF9E; 0xFF9F]%N ||
  (N.leb 0xFFA0 c && N.leb c 0xFFDC) || (N.leb 0xFFE0 c && N.leb c 0xFFEE && negb (N.eqb c 0xFFE5)).
Lemma leftb_iff c : leftb c = true <-> left_alone c.
Proof.
  unfold leftb, left_alone. rewrite !orb_true_iff, !andb_true_iff, !N.leb_le, negb_true_iff, N.eqb_neq, existsb_exists, or_assoc.
  apply or_iff_compat_r. split; [intros (x & H & E); apply N.eqb_eq in E; subst; exact H|intros H; exists c; split; [exact H|apply N.eqb_refl]].
Qed.
Lemma preset_width c t : preset_rel c t <-> (In (c, t) width_pairs /\ ~ left_alone c) \/ In (c, t) not_width.
Proof.
  rewrite <- preset_pairs_rel.
  assert (E : In (c, t) preset_pairs <-> In (c, t) (filter (fun p => negb (leftb (fst p))) width_pairs ++ not_width)) by (apply pairs_same; vm_compute; reflexivity).
  rewrite E, in_app_iff, filter_In. cbn [fst]. rewrite negb_true_iff, <- leftb_iff. destruct (leftb c); intuition discriminate.
Qed.
Lemma preset_final c t : preset_rel c t -> t <> c.
Proof. intros H E. subst t. exact (preset_rel_final _ _ _ H H). Qed.

(** What the preset changes, in terms of the character database alone. *)
Theorem C98_preset_is_width : forall o ch, chanoma_preset o = Ok ch -> forall dbg o' c t,
  normalize dbg o' ch [c] = Ok [t] /\ t <> c <-> (In (c, t) width_pairs /\ ~ left_alone c) \/ In (c, t) not_width.
Proof.
  intros o ch H dbg o' c t. rewrite (preset_ok o ch H), <- preset_width. unfold pointwise. split.
  - intros [F N]. inversion F as [|? ? ? ? [R|[E _]]]; subst; [exact R|contradiction].
  - intros R. split; [constructor; [left; exact R|constructor]|apply preset_final, R].
Qed.
Print Assumptions C98_preset_is_width.

Lemma not_width_cases c t : In (c, t) not_width <-> (c = 0x201D /\ t = 0x22 \/ c = 0x2019 /\ t = 0x27 \/ c = 0x301C /\ t = 0x7E)%N.
Proof. unfold not_width. cbn [In]. rewrite !pair_equal_spec. intuition congruence. Qed.
Lemma narrowed_blind : forall c t, In (c, t) width_pairs -> narrowed c = t /\ narrowed t = t.
Proof.
  assert (B : forallb (fun p => N.eqb (narrowed (fst p)) (snd p) && N.eqb (narrowed (snd p)) (snd p)) width_pairs = true) by (vm_compute; reflexivity).
  intros c t H. rewrite forallb_forall in B. apply B in H. cbn [fst snd] in H. apply andb_true_iff in H as [H1 H2]. split; apply N.eqb_eq; assumption.
Qed.
Lemma narrowed_cases c : In (c, narrowed c) width_pairs \/ (narrowed c = c /\ forall t, ~ In (c, t) width_pairs).
Proof.
  unfold narrowed. destruct (find (fun p => N.eqb (fst p) c) width_pairs) as [[x y]|] eqn:E.
  - apply find_some in E as [E F]. cbn [fst] in F. apply N.eqb_eq in F. subst x. left. exact E.
  - right. split; [reflexivity|]. intros t H. apply (find_none _ _ E) in H. cbn [fst] in H. rewrite N.eqb_refl in H. discriminate.
Qed.
Lemma odd_narrowed c t : In (c, t) not_width -> narrowed c = c /\ narrowed t = t.
Proof. intros H. apply not_width_cases in H. destruct H as [[-> ->]|[[-> ->]|[-> ->]]]; vm_compute; split; reflexivity. Qed.
Lemma odd_not_width c t y : In (c, t) not_width -> ~ In (c, y) width_pairs.
Proof.
  assert (B : forallb (fun p => negb (N.eqb (fst p) (snd p))) width_pairs = true) by (vm_compute; reflexivity).
  intros H W. destruct (odd_narrowed _ _ H) as [E _]. destruct (narrowed_blind _ _ W) as [E' _]. rewrite E in E'. subst y.
  rewrite forallb_forall in B. apply B in W. cbn [fst snd] in W. rewrite N.eqb_refl in W. discriminate.
Qed.

(** A text without those three characters keeps its compatibility decomposition, ... *)
Theorem C98_same_decomposition : forall o ch, chanoma_preset o = Ok ch -> forall D, width_blind D -> forall dbg o' s out,
  normalize dbg o' ch s = Ok out -> (forall c t, In (c, t) not_width -> ~ In c s) -> flat_map D out = flat_map D s.
Proof.
  intros o ch H D W dbg o' s out E N. apply (preset_ok o ch H) in E. induction E as [|c t s out R E IH]; [reflexivity|].
  cbn [flat_map]. rewrite IH by (intros x y P Q; apply (N x y P); right; exact Q). f_equal.
  destruct R as [R|[-> _]]; [|reflexivity]. apply preset_width in R. destruct R as [[R _]|R]; [symmetry; apply W, R|].
  exfalso. apply (N c t R). left. reflexivity.
Qed.
Print Assumptions C98_same_decomposition.

(** ... and a text with one of them does not, if no decomposition is given to those three and to what the
    preset makes of them (Unicode gives them none). *)
Theorem C98_same_decomposition_exact : forall o ch, chanoma_preset o = Ok ch -> forall D, width_blind D ->
  (forall c t, In (c, t) not_width -> D c = [c] /\ D t = [t]) -> forall dbg o' s out, normalize dbg o' ch s = Ok out ->
  (flat_map D out = flat_map D s <-> forall c t, In (c, t) not_width -> ~ In c s).
Proof.
  intros o ch H D W S dbg o' s out E. split; [|intros N; exact (C98_same_decomposition o ch H D W dbg o' s out E N)].
  intros Q c t P I. apply (preset_ok o ch H) in E.
  assert (L : count_occ N.eq_dec (flat_map D out) c + count_occ N.eq_dec s c = count_occ N.eq_dec (flat_map D s) c).
  { clear Q I. induction E as [|x y s out R E IH]; [reflexivity|]. cbn [flat_map]. rewrite !count_occ_app.
    assert (X : count_occ N.eq_dec (D y) c + count_occ N.eq_dec [x] c = count_occ N.eq_dec (D x) c).
    { destruct R as [R|[-> R]].
      - apply preset_width in R as [[R L]|R].
        + rewrite (W _ _ R). replace (count_occ N.eq_dec [x] c) with 0; [apply Nat.add_0_r|]. symmetry. apply count_occ_not_In. intros [->|[]].
          exact (odd_not_width _ _ _ P R).
        + destruct (S _ _ R) as [Dx Dy]. rewrite Dx, Dy.
          assert (Y : y <> c) by (apply not_width_cases in P, R; intros ->; intuition congruence).
          cbn [count_occ]. destruct (N.eq_dec y c) as [?|_]; [contradiction|reflexivity].
      - assert (Y : x <> c). { intros ->. apply (R t). apply preset_width. right. exact P. }
        cbn [count_occ]. destruct (N.eq_dec x c) as [?|_]; [contradiction|lia]. }
    cbn [count_occ] in X |- *. unfold char, str in *; destruct (N.eq_dec x c); lia. }
  rewrite Q in L. apply (count_occ_In N.eq_dec) in I. unfold char in *. lia.
Qed.
Print Assumptions C98_same_decomposition_exact.

Lemma targets_settled c t u : In (c, t) width_pairs -> ~ preset_rel t u.
Proof.
  assert (B : forallb (fun p => match conv_get PRESET (snd p) with None => true | Some _ => false end) width_pairs = true) by (vm_compute; reflexivity).
  intros H R. apply PRESET_get in R. rewrite forallb_forall in B. apply B in H. cbn [snd] in H. rewrite R in H. discriminate.
Qed.
Lemma narrow_commutes c : narrowed (conv1 PRESET c) = conv1 PRESET (narrowed c).
Proof.
  unfold conv1 at 1. destruct (conv_get PRESET c) as [t|] eqn:E.
  - apply PRESET_get in E. pose proof E as R. apply preset_width in E as [[E L]|E].
    + destruct (narrowed_blind _ _ E) as [-> ->]. unfold conv1. destruct (conv_get PRESET t) as [u|] eqn:F; [|reflexivity].
      apply PRESET_get in F. exfalso. exact (targets_settled _ _ _ E F).
    + destruct (odd_narrowed _ _ E) as [-> ->]. unfold conv1. apply PRESET_get in R. rewrite R. reflexivity.
  - destruct (narrowed_cases c) as [W|[W _]].
    + unfold conv1. destruct (conv_get PRESET (narrowed c)) as [u|] eqn:F; [|reflexivity].
      apply PRESET_get in F. exfalso. exact (targets_settled _ _ _ W F).
    + rewrite W. unfold conv1. rewrite E. reflexivity.
Qed.

(** Replacing all width variants before the preset or after it is the same, for every text; ... *)
Theorem C98_narrowing_commutes : forall o ch, chanoma_preset o = Ok ch -> forall dbg o' s out,
  normalize dbg o' ch s = Ok out -> normalize dbg o' ch (map narrowed s) = Ok (map narrowed out).
Proof.
  intros o ch H dbg o' s out E. rewrite chanoma_preset_eq in H. apply Ok_inj in H. subst ch. rewrite normalize_conv in E |- *.
  apply Ok_inj in E. subst out. f_equal. rewrite !map_map. apply map_ext. intros c. symmetry. apply narrow_commutes.
Qed.
Print Assumptions C98_narrowing_commutes.
(** ... and after replacing them the preset has only the three characters left to change. *)
Theorem C98_after_narrowing : forall o ch, chanoma_preset o = Ok ch -> forall dbg o' s,
  (forall c t, In (c, t) not_width -> ~ In c s) -> normalize dbg o' ch (map narrowed s) = Ok (map narrowed s).
Proof.
  intros o ch H dbg o' s N. apply (preset_ok o ch H). induction s as [|c s IH]; [constructor|]. cbn [map]. constructor.
  - right. split; [reflexivity|]. intros t R. destruct (narrowed_cases c) as [W|[W W']]; [exact (targets_settled _ _ _ W R)|].
    rewrite W in R. apply preset_width in R as [[R _]|R]; [exact (W' _ R)|]. apply (N _ _ R). left. reflexivity.
  - apply IH. intros x y P Q. apply (N x y P). right. exact Q.
Qed.
Print Assumptions C98_after_narrowing.

(** The half-width sound marks are among what the preset leaves, so a half-width kana with its mark is left as
    a full-width kana and a half-width mark. *)
Theorem C98_all_widths_refuted : exists o ch s out, chanoma_preset o = Ok ch /\ normalize false o ch s = Ok out /\
  exists c, In c out /\ narrowed c <> c.
Proof.
  exists no_order, [MConv PRESET], [0xFF76; 0xFF9E]%N, [0x30AB; 0xFF9E]%N. rewrite chanoma_preset_eq. split; [reflexivity|]. split; [vm_compute; reflexivity|].
  exists 0xFF9E%N. split; [right; left; reflexivity|]. vm_compute. discriminate.
Qed.
Print Assumptions C98_all_widths_refuted.

(** Neologdn keeps no such decomposition: a dash becomes a prolonged sound mark. *)
Theorem C98_neologdn_refuted : forall D, D 0x2014%N = [0x2014]%N -> D 0x30FC%N = [0x30FC]%N ->
  exists o ch s out, chanoma_neologdn o = Ok ch /\ normalize false o ch s = Ok out /\
  (forall c t, In (c, t) not_width -> ~ In c s) /\ flat_map D out <> flat_map D s.
Proof.
  intros D H H'. exists no_order, [MNeo NEO], [0x2014]%N, [0x30FC]%N. split; [apply chanoma_neologdn_eq|]. split.
  { apply (C27_single_character no_order _ (chanoma_neologdn_eq no_order) false no_order 0x2014%N 0x30FC%N). left. apply nr_dash. cbn; tauto. }
  split; [intros c t P [E|[]]; apply not_width_cases in P; subst c; intuition discriminate|]. cbn [flat_map]. rewrite H, H'. discriminate.
Qed.
Print Assumptions C98_neologdn_refuted.

Example C98_case : (exists ch, chanoma_preset no_order = Ok ch /\
    normalize false no_order ch [0xFF21; 0xFF76; 0xFF9E; 0xFF02; 0x201D; 0x3000; 0xFFE5]%N = Ok [0x41; 0x30AB; 0xFF9E; 0xFF02; 0x22; 0x20; 0xA5]%N) /\
  width_blind (fun c => [narrowed c]) /\ (forall c t, In (c, t) not_width -> [narrowed c] = [c] /\ [narrowed t] = [t]) /\
  In (0xFF76, 0x30AB)%N width_pairs /\ ~ left_alone 0xFF76%N /\ left_alone 0xFF9E%N /\ List.length width_pairs = 226.
Proof.
  split; [exists [MConv PRESET]; split; [apply chanoma_preset_eq|vm_compute; reflexivity]|].
  split; [intros c t H; destruct (narrowed_blind _ _ H) as [-> ->]; reflexivity|].
  split; [intros c t H; destruct (odd_narrowed _ _ H) as [-> ->]; split; reflexivity|].
  split; [apply pair_mem_In; vm_compute; reflexivity|].
  split; [rewrite <- leftb_iff; vm_compute; discriminate|]. split; [apply leftb_iff; vm_compute; reflexivity|vm_compute; reflexivity].
Qed.
