(** C101: a text read backwards. *)
From Coq Require Import String.
From Verif Require Import Base StrOps Converter Eliminator Reducer Dotted Ligature TrimMod Neologdn ModifierKind ChanomaModel
  Spec BaseFacts ConverterFacts SimpleFacts LigFacts CharsetFacts NeoFacts NeoProps EditSpec EditFacts EditLig BackSpec BackFacts SimpleProps ConverterProps
  PropsConverter PropsPipeline PropsLig PropsNeo PropsNeoMore PropsEdit.
Local Open Scope string_scope.
Local Open Scope list_scope.

(** The modifier to use on texts read backwards: the same one, or the ligature map read backwards if its keys do not
    get into each other's way. There is none for neologdn. *)
Inductive backward : modifier -> modifier -> Prop :=
| ba_conv cc : backward (MConv cc) (MConv cc)
| ba_elim el : backward (MElim el) (MElim el)
| ba_red c : backward (MRed c) (MRed c)
| ba_dot : backward MDot MDot
| ba_trim : backward MTrim MTrim
| ba_lig l : NoDup (map fst l) -> non_interfering l -> separate l -> backward (MLig l) (MLig (backward_map l)).

Lemma backward_map_twice l : backward_map (backward_map l) = l.
Proof.
  unfold backward_map. rewrite map_map. rewrite <- (map_id l) at 2. apply map_ext. intros [k v]. cbn [fst snd]. rewrite !rev_involutive. reflexivity.
Qed.
Lemma backward_sym m m' : backward m m' -> backward m' m.
Proof.
  intros [cc|el|c| | |l A B C]; try constructor. rewrite <- (backward_map_twice l) at 2. constructor; [apply back_nodup|apply back_non_interfering|apply back_separate]; assumption.
Qed.
Lemma modify_backward m m' o o' s out : backward m m' -> modify o m s = Ok out -> modify o' m' (rev s) = Ok (rev out).
Proof.
  intros [cc|el|c| | |l A B C]; cbn [modify].
  - rewrite !conv_modify_eq. intros H. apply Ok_inj in H. subst out. rewrite map_rev. reflexivity.
  - intros H. apply Ok_inj in H. subst out. rewrite !elim_filter, filter_rev. reflexivity.
  - intros H. apply Ok_inj in H. subst out. rewrite red_rev. reflexivity.
  - intros H. apply Ok_inj in H. subst out. rewrite dot_rev. reflexivity.
  - intros H. apply Ok_inj in H. subst out. rewrite trim_rev. reflexivity.
  - intros H. apply Ok_inj in H. f_equal. apply lig_modify_iff; [apply back_nodup, A|apply back_non_interfering, B|].
    apply replaced_back; try assumption. apply lig_modify_iff in H; assumption.
Qed.
Lemma fold_backward c c' : Forall2 backward c c' -> forall o o' i s out, normalize_fold o i c s = Ok out -> normalize_fold o' i c' (rev s) = Ok (rev out).
Proof.
  induction 1 as [|m m' c c' Hm H IH]; intros o o' i s out; cbn [normalize_fold].
  - intros E. apply Ok_inj in E. subst out. reflexivity.
  - destruct (modify (sub o i) m s) as [t| |] eqn:E; cbn [bind]; try discriminate. intros Q.
    rewrite (modify_backward _ _ _ (sub o' i) _ _ Hm E). cbn [bind]. exact (IH _ _ _ _ _ Q).
Qed.
Lemma forall2_sym c c' : Forall2 backward c c' -> Forall2 backward c' c.
Proof. induction 1; constructor; [apply backward_sym|]; assumption. Qed.

(** Normalising the text read backwards gives the result read backwards. *)
Theorem C101_backwards : forall c c', Forall2 backward c c' -> forall s out, result c s out <-> result c' (rev s) (rev out).
Proof.
  intros c c' H s out. split.
  - intros (o & E). exists o. unfold normalize in *. cbn [negb] in *. exact (fold_backward _ _ H _ _ _ _ _ E).
  - intros (o & E). exists o. unfold normalize in *. cbn [negb] in *. apply (fold_backward _ _ (forall2_sym _ _ H) o o) in E. rewrite !rev_involutive in E. exact E.
Qed.
Print Assumptions C101_backwards.
(** A text that reads the same in both directions keeps doing so. *)
Theorem C101_palindromes : forall c, Forall2 backward c c -> forall s out, rev s = s -> result c s out -> rev out = out.
Proof.
  intros c H s out E R. pose proof (proj1 (C101_backwards c c H s out) R) as R'. rewrite E in R'. destruct R as (o & R), R' as (o' & R').
  unfold normalize in *. cbn [negb] in *. apply (fold_backward _ _ H o o') in R. apply (fold_backward _ _ H o' o') in R'. rewrite E in R, R'. rewrite R in R'. apply Ok_inj in R'. rewrite rev_involutive in R'. exact R'.
Qed.
Print Assumptions C101_palindromes.
Theorem C101_preset : forall o ch, chanoma_preset o = Ok ch -> forall s out, result ch s out <-> result ch (rev s) (rev out).
Proof. intros o ch H. rewrite chanoma_preset_eq in H. apply Ok_inj in H. subst ch. apply C101_backwards. repeat constructor. Qed.
Print Assumptions C101_preset.
(** If occurrences of one key can overlap, the map read backwards need not do it: keys are sought from the left. *)
Theorem C101_overlap_refuted : exists l, NoDup (map fst l) /\ non_interfering l /\
  exists s out out', result [MLig l] s out /\ result [MLig (backward_map l)] (rev s) out' /\ out' <> rev out.
Proof.
  exists [(lit "aa", lit "b")]. split; [repeat constructor; intros []|]. split.
  - split; [intros k v [E|[]]; injection E as <- <-; split; discriminate|]. split.
    + intros k v k' v' [E|[]] [E'|[]] D. injection E as <- <-. injection E' as <- <-. contradiction.
    + intros k v k' v' x [E|[]] [E'|[]]. injection E as <- <-. injection E' as <- <-. intros [<-|[]] [X|[X|[]]]; discriminate.
  - exists (lit "aaa"), (lit "ba"), (lit "ba"). split; [exists no_order; reflexivity|]. split; [exists no_order; reflexivity|]. discriminate.
Qed.
Print Assumptions C101_overlap_refuted.

Opaque neo_text.
(** Neologdn on a text read backwards: exactly when no kana stands next to a mark it could be composed with, before or
    behind it, in the text as it is when the composing begins. *)
Theorem C101_neologdn : forall o ch, chanoma_neologdn o = Ok ch -> forall s a b c, pointwise neologdn_rel s a -> collapsed prolonged_mark a b -> undotted None b c ->
  forall out out', result ch s out -> result ch (rev s) out' ->
  (out' = rev out <-> forall x m t, composes x m t -> ~ occurs [x; m] (filter not_tilde c) /\ ~ occurs [m; x] (filter not_tilde c)).
Proof.
  intros o ch H s a b c H1 H2 H3 out out' (o1 & R) (o2 & R'). neo H. rewrite normalize_neo in R, R'. apply Ok_inj in R. apply Ok_inj in R'.
  apply (conv1_rel_unique _ _ NEO_get) in H1. apply red_modify_spec in H2. apply dot_modify_spec in H3.
  apply comp_back.
  - apply neo_text_result in R as (a1 & b1 & c1 & Q1 & Q2 & Q3 & Q4).
    apply (conv1_rel_unique _ _ NEO_get) in Q1. apply red_modify_spec in Q2. apply dot_modify_spec in Q3. subst a b c a1 b1 c1. exact Q4.
  - apply neo_text_result in R' as (a1 & b1 & c1 & Q1 & Q2 & Q3 & Q4).
    apply (conv1_rel_unique _ _ NEO_get) in Q1. apply red_modify_spec in Q2. apply dot_modify_spec in Q3. rewrite map_rev in Q1. rewrite <- H1 in Q1.
    subst a1. rewrite red_rev, H2 in Q2. subst b1. rewrite dot_rev, H3 in Q3. subst c1. rewrite filter_rev in Q4. exact Q4.
Qed.
Print Assumptions C101_neologdn.
(** So it holds for every text without sound marks and without characters converted to them. *)
Theorem C101_neologdn_no_marks : forall o ch, chanoma_neologdn o = Ok ch -> forall s a, pointwise neologdn_rel s a ->
  ~ In voiced_mark a -> ~ In semivoiced_mark a -> forall out, result ch s out <-> result ch (rev s) (rev out).
Proof.
  assert (K : forall o ch, chanoma_neologdn o = Ok ch -> forall s a, pointwise neologdn_rel s a ->
    ~ In voiced_mark a -> ~ In semivoiced_mark a -> forall out out', result ch s out -> result ch (rev s) out' -> out' = rev out).
  { intros o ch H s a P V W out out' R R'. pose proof (proj1 (red_modify_spec prolonged_mark a _) eq_refl) as Q2.
    pose proof (proj1 (dot_modify_spec (red_modify prolonged_mark a) _) eq_refl) as Q3.
    apply (C101_neologdn o ch H s a _ _ P Q2 Q3 out out' R R').
    intros x m t C. destruct (comp_marks [x; m] [t]) as (x' & m' & t' & E & _ & _ & _ & M & _); [exists x, m, t; auto|]. injection E as <- <-.
    assert (N : ~ In m (filter not_tilde (dot_modify (red_modify prolonged_mark a)))).
    { intros I. apply filter_In in I as [I _]. assert (m = voiced_mark \/ m = semivoiced_mark) as D by (unfold is_mark in M; apply Bool.orb_true_iff in M as [M|M]; apply N.eqb_eq in M; auto).
      assert (J : In m a).
      { exact (collapsed_In _ _ _ Q2 _ (undotted_In _ _ _ Q3 _ I)). }
      destruct D as [->| ->]; auto. }
    split; intros (i & u & w & E & _); apply N; rewrite E; apply in_or_app; right; [right; left|left]; reflexivity. }
  intros o ch H s a P V W out. assert (T : forall s, exists z, result ch s z). { intros z. neo H. exists (neo_text z), no_order. apply normalize_neo. }
  destruct (T s) as (z & Z). destruct (T (rev s)) as (z' & Z'). pose proof (K o ch H s a P V W z z' Z Z') as E. subst z'.
  assert (D : forall s x y, result ch s x -> result ch s y -> x = y). { intros t x y (o1 & X) (o2 & Y). neo H. rewrite normalize_neo in X, Y. apply Ok_inj in X. apply Ok_inj in Y. congruence. }
  split.
  - intros R. rewrite (D _ _ _ R Z). exact Z'.
  - intros R. pose proof (D _ _ _ R Z') as E. apply rev_inj in E. subst out. exact Z.
Qed.
Print Assumptions C101_neologdn_no_marks.
(** It does not hold for every text: a kana before its mark is composed, behind it it is not. *)
Theorem C101_neologdn_refuted : forall o ch, chanoma_neologdn o = Ok ch -> exists s out out', result ch s out /\ result ch (rev s) out' /\ out' <> rev out /\ List.length out' <> List.length out.
Proof.
  intros o ch H. exists [0x304B; 0x309B]%N, [0x304C]%N, [0x309B; 0x304B]%N.
  assert (A : normalize false no_order [MNeo NEO] [0x304B; 0x309B]%N = Ok [0x304C]%N) by (vm_compute; reflexivity).
  assert (B : normalize false no_order [MNeo NEO] [0x309B; 0x304B]%N = Ok [0x309B; 0x304B]%N) by (vm_compute; reflexivity).
  neo H. split; [exists no_order; exact A|]. split; [exists no_order; exact B|]. split; [discriminate|]. cbn. discriminate.
Qed.
Print Assumptions C101_neologdn_refuted.
Example C101_case : Forall2 backward [MTrim; MRed 0x61%N; MLig ab_c; MDot] [MTrim; MRed 0x61%N; MLig (backward_map ab_c); MDot] /\
  result [MTrim; MRed 0x61%N; MLig ab_c; MDot] (lit " xaab  yab.") (lit "xc yc.") /\
  result [MTrim; MRed 0x61%N; MLig (backward_map ab_c); MDot] (lit ".bay  baax ") (lit ".cy cx").
Proof.
  assert (W : widens [MLig ab_c] (fun n => (n + 2) * 1)) by exact ab_wide. inversion W as [| |l K V c f Nd Ni Sp Sz PV W' E E']; subst; [match goal with R : reach (MLig _) _ |- _ => inversion R end|].
  split; [apply Forall2_cons; [apply ba_trim|]; apply Forall2_cons; [apply ba_red|]; apply Forall2_cons; [apply ba_lig; assumption|]; apply Forall2_cons; [apply ba_dot|apply Forall2_nil]|]. split; exists no_order; reflexivity.
Qed.
Example C101_case_palindrome : result [MRed 0x61%N; MDot] (lit "aab  aa  baa") (lit "ab a ba") /\ rev (lit "aab  aa  baa") = lit "aab  aa  baa" /\ rev (lit "ab a ba") = lit "ab a ba".
Proof. split; [exists no_order; reflexivity|]. split; reflexivity. Qed.
