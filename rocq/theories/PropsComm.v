(** Property C75: which modifiers of a pipeline can be exchanged. *)
From Coq Require Import String.
From Verif Require Import Base BaseFacts Utf8 StrOps Position Converter Eliminator Reducer Dotted TrimMod ModifierKind ChanomaModel
  Spec ConverterFacts SimpleFacts ConverterProps SimpleProps PropsConverter PropsSimple PropsPipeline CommProps.
Local Open Scope string_scope.
Local Open Scope list_scope.

(** The order of [m1] and [m2] does not matter, for any text. *)
Definition exchangeable (m1 m2 : modifier) : Prop :=
  forall s out, valid_str s -> (result [m1; m2] s out <-> result [m2; m1] s out).
Lemma exchangeable_iff m1 m2 f g : does m1 f -> does m2 g -> (exchangeable m1 m2 <-> forall s, valid_str s -> g (f s) = f (g s)).
Proof.
  intros H1 H2. unfold exchangeable. split.
  - intros H s V. apply (does_two m2 m1 g f H2 H1). apply H; [exact V|]. apply (does_two m1 m2 f g H1 H2). reflexivity.
  - intros H s out V. rewrite (does_two m1 m2 f g H1 H2), (does_two m2 m1 g f H2 H1), (H s V). reflexivity.
Qed.
Lemma exchangeable_sym m1 m2 : exchangeable m1 m2 <-> exchangeable m2 m1.
Proof. unfold exchangeable. split; intros H s out V; symmetry; apply H, V. Qed.
Lemma mem_In c el : mem N.eqb c el = true <-> In c el.
Proof. unfold mem. rewrite existsb_exists. split; [intros (x & I & E); apply N.eqb_eq in E; subst; exact I|intros I; exists c; split; [exact I|apply N.eqb_refl]]. Qed.
Lemma mem_not c el : mem N.eqb c el = false <-> ~ In c el.
Proof. rewrite <- mem_In. symmetry. apply not_true_iff_false. Qed.
Lemma valid1 c : is_scalar c = true -> valid_str [c].
Proof. intros H. constructor; [exact H|constructor]. Qed.
Lemma scalar_space : is_scalar space = true.
Proof. reflexivity. Qed.
Ltac valid := repeat (apply Forall_cons; [first [assumption|reflexivity]|]); apply Forall_nil.

(** ** Conversion and ... *)
(** another conversion: exactly if exchanging them does not change single characters *)
Theorem C75_convert_convert : forall a b, exchangeable (MConv a) (MConv b) <->
  forall c, is_scalar c = true -> forall out, result [MConv a; MConv b] [c] out <-> result [MConv b; MConv a] [c] out.
Proof.
  intros a b. split; [intros H c S out; apply H, valid1, S|]. intros H.
  apply (exchangeable_iff _ _ _ _ (does_conv a) (does_conv b)). intros s V. rewrite !map_map. apply map_ext_in. intros c I.
  unfold valid_str in V. rewrite Forall_forall in V. specialize (H c (V c I)).
  pose proof (proj1 (H _) (proj2 (does_two _ _ _ _ (does_conv a) (does_conv b) [c] _) eq_refl)) as E.
  apply (does_two _ _ _ _ (does_conv b) (does_conv a)) in E. cbn [map] in E. congruence.
Qed.
Print Assumptions C75_convert_convert.
(** elimination: exactly if no conversion leads into or out of the eliminated characters *)
Theorem C75_convert_eliminate : forall cc el, exchangeable (MConv cc) (MElim el) <->
  forall c d, is_scalar c = true -> result [MConv cc] [c] [d] -> (In d el <-> In c el).
Proof.
  intros cc el. rewrite (exchangeable_iff _ _ _ _ (does_conv cc) (does_elim el)). split.
  - intros H c d S E. apply conv_single in E. subst d. specialize (H [c] (valid1 c S)). cbn [map filter] in H.
    rewrite <- !mem_In. destruct (mem N.eqb (conv1 cc c) el), (mem N.eqb c el); cbn in H; try discriminate; tauto.
  - intros H s V. apply map_filter. eapply Forall_impl; [|exact V]. cbn beta. intros c S.
    specialize (H c (conv1 cc c) S (proj2 (conv_single cc c _) eq_refl)). f_equal. apply eq_true_iff_eq. rewrite !mem_In. exact H.
Qed.
Print Assumptions C75_convert_eliminate.
(** reduction of [k]: exactly if [k], and nothing else, is converted to [k] *)
Theorem C75_convert_reduce : forall cc k, is_scalar k = true -> (exchangeable (MConv cc) (MRed k) <->
  forall c d, is_scalar c = true -> result [MConv cc] [c] [d] -> (d = k <-> c = k)).
Proof.
  intros cc k Sk. rewrite (exchangeable_iff _ _ _ _ (does_conv cc) (does_red k)). split.
  - intros H. assert (Hk : conv1 cc k = k).
    { assert (V : valid_str [k; k]) by valid. specialize (H _ V). cbn [map red_rec] in H. rewrite N.eqb_refl in H. cbn [map] in H.
      destruct (N.eqb_spec k (conv1 cc k)) as [E|D]; [symmetry; exact E|discriminate H]. }
    intros c d S E. apply conv_single in E. subst d. split; [|intros ->; exact Hk]. intros E.
    assert (V : valid_str [k; c]) by valid. specialize (H _ V). cbn [map red_rec] in H. rewrite E, Hk, N.eqb_refl in H.
    destruct (N.eqb_spec k c) as [E'|D]; [symmetry; exact E'|]. discriminate H.
  - intros H s V. apply map_red.
    + eapply Forall_impl; [|exact V]. cbn beta. intros c S. apply (H c _ S), conv_single. reflexivity.
    + apply (H k _ Sk (proj2 (conv_single cc k _) eq_refl)). reflexivity.
Qed.
Print Assumptions C75_convert_reduce.
(** trimming: exactly if the space, and nothing else, is converted to the space *)
Theorem C75_convert_trim : forall cc, exchangeable (MConv cc) MTrim <->
  forall c d, is_scalar c = true -> result [MConv cc] [c] [d] -> (d = space <-> c = space).
Proof.
  intros cc. rewrite (exchangeable_iff _ _ _ _ (does_conv cc) does_trim). split.
  - intros H c d S E. apply conv_single in E. subst d. specialize (H [c] (valid1 c S)). cbn [map] in H.
    unfold trim_modify, trim_matches, trim_end_matches in H. cbn [trim_start_matches] in H. change SPACE with space in H.
    destruct (N.eqb_spec (conv1 cc c) space) as [E|D], (N.eqb_spec c space) as [E'|D']; [tauto| | |tauto]; cbn [trim_start_matches rev app] in H.
    + rewrite (proj2 (N.eqb_neq c space) D') in H. discriminate H.
    + rewrite (proj2 (N.eqb_neq _ space) D) in H. discriminate H.
  - intros H s V. apply map_trim.
    + eapply Forall_impl; [|exact V]. cbn beta. intros c S. apply (H c _ S), conv_single. reflexivity.
    + apply (H space _ scalar_space (proj2 (conv_single cc space _) eq_refl)). reflexivity.
Qed.
Print Assumptions C75_convert_trim.
(** dotted-space elimination: exactly if spaces and ASCII letters and digits stay what they are and nothing becomes one *)
Theorem C75_convert_dotted : forall cc, exchangeable (MConv cc) MDot <->
  forall c d, is_scalar c = true -> result [MConv cc] [c] [d] -> (d = space <-> c = space) /\ (alnum d <-> alnum c).
Proof.
  intros cc. rewrite (exchangeable_iff _ _ _ _ (does_conv cc) does_dot). split.
  - intros H.
    assert (H1 : forall c, is_scalar c = true -> conv1 cc c = SPACE <-> c = SPACE).
    { intros c S. specialize (H [c] (valid1 c S)). cbn [map dot_rec app] in H.
      destruct (N.eqb_spec (conv1 cc c) SPACE) as [E|D], (N.eqb_spec c SPACE) as [E'|D']; [tauto| | |tauto]; discriminate H. }
    intros c d S E. apply conv_single in E. subst d. split; [exact (H1 c S)|].
    destruct (N.eq_dec c SPACE) as [->|D]; [rewrite (proj2 (H1 SPACE eq_refl) eq_refl); tauto|].
    assert (D' : conv1 cc c <> SPACE) by (intros E; apply D, (H1 c S), E).
    assert (V : valid_str [c; SPACE; c]) by valid. specialize (H _ V). cbn [map dot_rec app] in H.
    rewrite (proj2 (H1 SPACE eq_refl) eq_refl), N.eqb_refl, (proj2 (N.eqb_neq _ _) D), (proj2 (N.eqb_neq _ _) D') in H.
    rewrite <- !is_alnum_spec.
    destruct (is_ascii_alphanumeric (conv1 cc c)), (is_ascii_alphanumeric c); cbn [app map] in H; [tauto|discriminate H|discriminate H|tauto].
  - intros H s V. apply map_dot; [|exact (proj2 (proj1 (H SPACE _ eq_refl (proj2 (conv_single cc SPACE _) eq_refl))) eq_refl)|reflexivity].
    eapply Forall_impl; [|exact V]. cbn beta. intros c S. destruct (H c _ S (proj2 (conv_single cc c _) eq_refl)) as [H1 H2].
    split; [exact H1|]. apply eq_true_iff_eq. rewrite !is_alnum_spec. exact H2.
Qed.
Print Assumptions C75_convert_dotted.

(** ** Pairs that can always be exchanged *)
Theorem C75_always : (forall el el', exchangeable (MElim el) (MElim el')) /\ (forall k j, exchangeable (MRed k) (MRed j)) /\
  (forall k, exchangeable (MRed k) MTrim) /\ exchangeable MTrim MDot.
Proof.
  split; [|split; [|split]].
  - intros el el'. apply (exchangeable_iff _ _ _ _ (does_elim el) (does_elim el')). intros s _. apply filter_comm.
  - intros k j. apply (exchangeable_iff _ _ _ _ (does_red k) (does_red j)). intros s _.
    destruct (N.eq_dec k j) as [->|D]; [reflexivity|]. symmetry. apply red_red; [exact D|reflexivity].
  - intros k. apply (exchangeable_iff _ _ _ _ (does_red k) does_trim). intros s _. apply red_trim.
  - apply (exchangeable_iff _ _ _ _ does_trim does_dot). intros s _.
    pose proof (proj1 (C16_dotted_subsumes false no_order s)) as E.
    assert (R : result [MTrim; MDot] s (dot_rec SPACE false s)).
    { exists no_order. rewrite E. rewrite normalize_dot, dot_modify_rec. reflexivity. }
    apply (does_two _ _ _ _ does_trim does_dot) in R. rewrite <- R. symmetry.
    destruct (C16_dotted_shape false no_order false no_order s (dot_rec SPACE false s)) as (_ & H1 & H2 & _).
    { rewrite normalize_dot, dot_modify_rec. reflexivity. }
    apply (trimmed_unique (dot_rec SPACE false s)); [apply trim_modify_trimmed|]. split; [exact H1|]. split; [exact H2|].
    exists 0, 0. cbn. rewrite app_nil_r. reflexivity.
Qed.
Print Assumptions C75_always.

(** ** Elimination and ... *)
(** reduction: exactly if the reduced character is eliminated, or nothing is *)
Theorem C75_eliminate_reduce : forall el k, valid_str el -> is_scalar k = true ->
  (exchangeable (MElim el) (MRed k) <-> In k el \/ el = []).
Proof.
  intros el k Ve Sk. rewrite (exchangeable_iff _ _ _ _ (does_elim el) (does_red k)). split.
  - intros H. destruct el as [|x el]; [auto|]. left. destruct (mem N.eqb k (x :: el)) eqn:M; [apply mem_In, M|exfalso].
    inversion Ve as [|? ? Sx _]; subst. assert (V : valid_str [k; x; k]) by valid. specialize (H _ V). cbn [filter] in H.
    assert (Mx : mem N.eqb x (x :: el) = true) by (apply mem_In; left; reflexivity).
    assert (D : k <> x) by (intros ->; congruence).
    rewrite M, Mx in H. cbn [negb red_rec] in H. rewrite N.eqb_refl, (proj2 (N.eqb_neq _ _) D) in H. cbn [filter] in H. rewrite M, Mx in H. discriminate H.
  - intros [I| ->] s _.
    + apply mem_In in I. assert (Q : (fun c => negb (mem N.eqb c el)) k = false) by (cbv beta; rewrite I; reflexivity).
      rewrite (filter_red _ k s Q). apply red_absent, filter_absent, Q.
    + rewrite !filter_all by reflexivity. reflexivity.
Qed.
Print Assumptions C75_eliminate_reduce.
(** trimming, or dotted-space elimination: exactly if the space is eliminated, or nothing is *)
Theorem C75_eliminate_trim : forall el, valid_str el -> (exchangeable (MElim el) MTrim <-> In space el \/ el = []).
Proof.
  intros el Ve. rewrite (exchangeable_iff _ _ _ _ (does_elim el) does_trim). split.
  - intros H. destruct el as [|x el]; [auto|]. left. destruct (mem N.eqb space (x :: el)) eqn:M; [apply mem_In, M|exfalso].
    inversion Ve as [|? ? Sx _]; subst. assert (V : valid_str [x; space; x]) by valid. specialize (H _ V). cbn [filter] in H.
    assert (Mx : mem N.eqb x (x :: el) = true) by (apply mem_In; left; reflexivity).
    assert (D : x <> space) by (intros ->; congruence).
    assert (T : trim_modify [x; space; x] = [x; space; x]).
    { unfold trim_modify, trim_matches, trim_end_matches. cbn [trim_start_matches]. change SPACE with space. rewrite (proj2 (N.eqb_neq _ _) D).
      cbn [rev app trim_start_matches]. rewrite (proj2 (N.eqb_neq _ _) D). reflexivity. }
    rewrite M, Mx, T in H. cbn [negb filter] in H. rewrite M, Mx in H. discriminate H.
  - intros [I| ->] s _.
    + apply mem_In in I. assert (Q : (fun c => negb (mem N.eqb c el)) SPACE = false) by (cbv beta; change SPACE with space; rewrite I; reflexivity).
      refine (eq_trans (trim_absent _ _) (eq_sym (filter_trim _ s Q))). apply filter_absent, Q.
    + rewrite !filter_all by reflexivity. reflexivity.
Qed.
Print Assumptions C75_eliminate_trim.
Theorem C75_eliminate_dotted : forall el, valid_str el -> (exchangeable (MElim el) MDot <-> In space el \/ el = []).
Proof.
  intros el Ve. rewrite (exchangeable_iff _ _ _ _ (does_elim el) does_dot). split.
  - intros H. destruct (mem N.eqb space el) eqn:M; [left; apply mem_In, M|right]. destruct el as [|y el']; [reflexivity|exfalso].
    set (el := y :: el') in *.
    assert (NoAl : forall x, In x el -> is_scalar x = true -> is_ascii_alphanumeric x = false).
    { intros x I Sx. destruct (is_ascii_alphanumeric x) eqn:A; [exfalso|reflexivity]. apply mem_In in I.
      assert (D : x <> SPACE) by (intros ->; discriminate A).
      assert (V : valid_str [x; SPACE; x]) by valid. specialize (H _ V). cbn [filter] in H. change SPACE with space in *. rewrite I, M in H.
      cbn [negb dot_rec app] in H. change SPACE with space in *. rewrite ?N.eqb_refl, (proj2 (N.eqb_neq _ _) D), A in H.
      change (is_ascii_alphanumeric space) with false in H. cbn [app filter] in H. rewrite M, I in H. discriminate H. }
    inversion Ve as [|? ? Sy _]; subst. assert (Iy : In y el) by (left; reflexivity). pose proof (NoAl y Iy Sy) as Ay. pose proof (proj2 (mem_In y el) Iy) as My.
    assert (Ma : mem N.eqb 97%N el = false). { apply mem_not. intros I. specialize (NoAl _ I eq_refl). discriminate NoAl. }
    assert (D : y <> SPACE) by (intros ->; change SPACE with space in *; congruence).
    assert (V : valid_str [97%N; y; SPACE; 97%N]) by valid. specialize (H _ V). cbn [filter] in H. change SPACE with space in *. rewrite My, M, Ma in H.
    cbn [negb] in H. cbn [dot_rec app] in H. change SPACE with space in *. rewrite (proj2 (N.eqb_neq _ _) D), Ay in H.
    change (N.eqb 97 space) with false in H. change (N.eqb space space) with true in H. cbn [app] in H.
    change (is_ascii_alphanumeric 97%N) with true in H. cbn [app filter] in H. rewrite My, Ma in H. discriminate H.
  - intros [I| ->] s _.
    + apply mem_In in I. assert (Q : (fun c => negb (mem N.eqb c el)) SPACE = false) by (cbv beta; change SPACE with space; rewrite I; reflexivity).
      refine (eq_trans (dot_absent _ _ _) (eq_sym (filter_dot _ s Q _ _))). apply filter_absent, Q.
    + rewrite !filter_all by reflexivity. reflexivity.
Qed.
Print Assumptions C75_eliminate_dotted.

(** ** Reduction and dotted-space elimination: exactly for the space, letters and digits *)
Theorem C75_reduce_dotted : forall k, is_scalar k = true -> (exchangeable (MRed k) MDot <-> k = space \/ alnum k).
Proof.
  intros k Sk. rewrite (exchangeable_iff _ _ _ _ (does_red k) does_dot). split.
  - intros H. destruct (N.eq_dec k space) as [E|D]; [left; exact E|right]. apply is_alnum_spec.
    destruct (is_ascii_alphanumeric k) eqn:A; [reflexivity|exfalso].
    assert (V : valid_str [k; space; k]) by valid. specialize (H _ V). cbn [red_rec] in H. rewrite N.eqb_refl, (proj2 (N.eqb_neq _ _) D) in H.
    cbn [dot_rec app] in H. change SPACE with space in H. rewrite (proj2 (N.eqb_neq _ _) D), N.eqb_refl, A in H.
    cbn [app dot_rec] in H. change (is_ascii_alphanumeric space) with false in H. cbn [app red_rec] in H. rewrite N.eqb_refl in H. discriminate H.
  - intros [->|A] s _.
    + pose proof (proj2 (C16_dotted_subsumes false no_order s)) as E.
      assert (R : result [MRed space; MDot] s (dot_rec SPACE false s)).
      { exists no_order. rewrite E. rewrite normalize_dot, dot_modify_rec. reflexivity. }
      apply (does_two _ _ _ _ (does_red space) does_dot) in R. rewrite <- R. symmetry.
      destruct (C16_dotted_shape false no_order false no_order s (dot_rec SPACE false s)) as (_ & _ & _ & H & _).
      { rewrite normalize_dot, dot_modify_rec. reflexivity. }
      rewrite <- red_modify_rec. apply no_adjacent_fix. exact H.
    + apply red_dot; [apply is_alnum_spec, A|discriminate].
Qed.
Print Assumptions C75_reduce_dotted.
(** The expectation that the order of modifiers does not matter is false, also for modifiers of the presets: *)
Theorem C75_order_refuted : exists s x y, result [MDot; MElim [0x7E%N]] s x /\ result [MElim [0x7E%N]; MDot] s y /\ x <> y.
Proof.
  exists (lit "a~ b"), (lit "ab"), (lit "a b"). split; [exists no_order; reflexivity|]. split; [exists no_order; reflexivity|discriminate].
Qed.
Print Assumptions C75_order_refuted.
Example C75_case :
  exchangeable (MConv [(0xFF21, 0x41)]%N) (MElim [0x7E%N]) /\ ~ exchangeable (MConv [(0xFF5E, 0x7E)]%N) (MElim [0x7E%N]) /\
  exchangeable (MRed 0x61%N) MDot /\ ~ exchangeable (MRed 0x30FC%N) MDot.
Proof.
  split; [|split; [|split]].
  - apply C75_convert_eliminate. intros c d _ E. apply conv_single in E. subst d. unfold conv1, conv_get. cbn.
    destruct (N.eqb_spec c 0xFF21) as [->|D]; [|reflexivity]. cbn. split; intros [E|[]]; discriminate E.
  - intros H. apply (proj1 (C75_convert_eliminate _ _)) with (c := 0xFF5E%N) (d := 0x7E%N) in H; [|reflexivity|apply conv_single; reflexivity].
    destruct (proj1 H (or_introl eq_refl)) as [E|[]]. discriminate E.
  - apply C75_reduce_dotted; [reflexivity|]. right. unfold alnum. lia.
  - intros H. apply C75_reduce_dotted in H; [|reflexivity]. destruct H as [E|E]; [discriminate E|]. unfold alnum in E. lia.
Qed.
