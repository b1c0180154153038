(** C108: comparing two pipelines by finitely many texts. *)
From Verif Require Import Base Utf8 StrOps Converter Eliminator Reducer Dotted TrimMod Ligature Neologdn ModifierKind ChanomaModel
  CharSpec Spec BaseFacts CharsetFacts ConverterFacts ConverterProps SimpleFacts SimpleProps LigFacts NeoFacts NeoProps PropsConverter PropsNeo PropsPipeline PropsLig
  CommProps EditFacts TableFacts SameSpec SameFacts SameNeo PropsSame RenameSpec PropsRename Machines ShortSpec ShortFacts.
From Coq Require Import Lia.
Opaque neo_text.

(** Modifiers whose result does not depend on the hash order by C21 and C24. *)
Definition determined (m : modifier) : Prop :=
  constructible m /\ forall l, m = MLig l -> NoDup (map fst l) /\ non_interfering l.
(** The two pipelines have the same results for a text. *)
Definition agree (c d : chanoma) (t : str) : Prop := forall out, result c t out <-> result d t out.

Lemma neo_constructible e : constructible (MNeo e) -> MNeo e = MNeo NEO.
Proof. intros C. destruct (C e eq_refl) as (o & H). rewrite neologdn_new_eq in H. apply Ok_inj in H. rewrite H. reflexivity. Qed.
Lemma sized_does m : determined m -> exists f, does m f /\ sized (memory m) f.
Proof.
  intros [C D]. destruct m as [cc|el|k| |l| |e]; cbn [memory].
  - exists (map (conv1 cc)). split; [apply does_conv|apply sized_map].
  - eexists. split; [apply does_elim|apply sized_filter].
  - eexists. split; [apply does_red|apply sized_red].
  - eexists. split; [apply does_dot|apply sized_dot].
  - destruct (D l eq_refl) as [N I]. eexists. split; [apply (does_ligatures l N I)|apply (sized_lig l N I)].
  - eexists. split; [apply does_trim|apply sized_trim].
  - rewrite (neo_constructible e C). exists neo_text. split; [apply does_neologdn|apply sized_neo].
Qed.
Lemma sized_pipeline c : Forall determined c -> exists f, (forall s out, result c s out <-> out = f s) /\ sized (memory_of c) f.
Proof.
  induction 1 as [|m c Hm H (g & G & S)].
  - exists (fun s => s). split; [|apply (sized_ext 1 (map (fun c => c))); [apply map_id|apply sized_map]].
    intros s out. unfold result, normalize. cbn. split; [intros (o & E); congruence|intros ->; exists no_order; reflexivity].
  - destruct (sized_does m Hm) as (f & D & F). exists (fun s => g (f s)). split; [|apply sized_comp; assumption].
    intros s out. change (m :: c) with ([m] ++ c). rewrite result_app. split.
    + intros (mid & A & B). apply D in A. apply G in B. congruence.
    + intros ->. exists (f s). split; [apply D|apply G]; reflexivity.
Qed.
Lemma agree_eq c d f g : (forall s out, result c s out <-> out = f s) -> (forall s out, result d s out <-> out = g s) -> forall t, agree c d t <-> f t = g t.
Proof.
  intros F G t. unfold agree. split.
  - intros H. apply G, H, F. reflexivity.
  - intros E out. rewrite F, G, E. reflexivity.
Qed.

(** Pipelines that differ on some text of the characters in [P] differ on a short one. *)
Theorem C108_short : forall c d (P : char -> Prop), Forall determined c -> Forall determined d ->
  (forall t, Forall P t -> length t < 2 * (memory_of c * memory_of d) -> agree c d t) ->
  forall t, Forall P t -> agree c d t.
Proof.
  intros c d P C D H t T. destruct (sized_pipeline c C) as (f & F & Sf). destruct (sized_pipeline d D) as (g & G & Sg).
  apply (agree_eq c d f g F G). apply (short_texts _ _ f g P Sf Sg); [|exact T]. intros u U L. apply (agree_eq c d f g F G). apply H; assumption.
Qed.
Print Assumptions C108_short.

(** ** Only the characters the modifiers tell apart matter *)
Section Fold.
  Context (A : list char) (z z' p : char).
  Hypothesis Hz : ~ In z A.
  Hypothesis Hz' : ~ In z' A.
  (** [p] becomes [z], other characters that play no part become [z']. *)
  Definition fold_char (c : char) : char := if in_dec N.eq_dec c A then c else if N.eqb c p then z else z'.
  Lemma fold_in c : In c A -> fold_char c = c.
  Proof. intros H. unfold fold_char. destruct (in_dec N.eq_dec c A); [reflexivity|contradiction]. Qed.
  Lemma fold_out c : ~ In c A -> ~ In (fold_char c) A.
  Proof. intros H. unfold fold_char. destruct (in_dec N.eq_dec c A); [contradiction|]. destruct (N.eqb c p); assumption. Qed.
  Lemma fold_iff (Q : char -> Prop) : (forall c, Q c -> In c A) -> forall c, Q (fold_char c) <-> Q c.
  Proof.
    intros H c. destruct (in_dec N.eq_dec c A) as [I|I]; [rewrite (fold_in c I); reflexivity|].
    split; intros q; exfalso; [apply (fold_out c I), H, q|apply I, H, q].
  Qed.
  Lemma fold_only Q x : In x A -> only Q fold_char x.
  Proof. intros I. split; [apply fold_in, I|]. intros y _ E. destruct (in_dec N.eq_dec y A) as [J|J]; [rewrite fold_in in E; assumption|]. destruct (fold_out y J). rewrite E. exact I. Qed.
  Lemma fold_unnoticed m : covers A m -> unnoticed fold_char m.
  Proof.
    intros H. destruct H as [cc H|l H|k H|S L|S|l H|n S P L T R K].
    - constructor. intros c d E. rewrite conv_modify_eq in E |- *. apply Ok_inj in E. injection E as <-. cbn [map]. do 2 f_equal.
      assert (X : forall x y, conv_get cc x = Some y -> In x A /\ In y A) by (intros x y Q; apply H, (hm_get_In N.eqb N.eqb_eq); exact Q).
      unfold conv1. destruct (in_dec N.eq_dec c A) as [I|I].
      + rewrite (fold_in c I). destruct (conv_get cc c) as [y|] eqn:Q; [rewrite fold_in by apply (X c y Q); reflexivity|rewrite fold_in by exact I; reflexivity].
      + destruct (conv_get cc c) as [y|] eqn:Q; [destruct I; apply (X c y Q)|]. destruct (conv_get cc (fold_char c)) as [y|] eqn:Q'; [|reflexivity]. destruct (fold_out c I). apply (X _ y Q').
    - constructor. apply (fold_iff (fun x => In x l)). exact H.
    - constructor. apply fold_only, H.
    - constructor; [apply fold_only, S|apply (fold_iff alnum), L].
    - constructor. apply fold_only, S.
    - constructor. intros k v I. destruct (H k v I) as [K V]. split; [intros x J; apply fold_only, K, J|intros x J; apply fold_in, V, J].
    - constructor.
      + intros c t Q. left. destruct (R c t Q) as [I J]. rewrite !fold_in by assumption. exact Q.
      + intros c Q t E. destruct (in_dec N.eq_dec c A) as [I|I]; [rewrite (fold_in c I) in E; apply (Q t E)|]. apply (fold_out c I). apply (R _ _ E).
      + apply fold_only, P.
      + apply fold_only, S.
      + intros c _. apply (fold_iff alnum), L.
      + intros c _. apply (fold_iff (fun x => In x tilde_variants)), T.
      + intros a m t C. destruct (K a m t C) as (Ia & Im & It). split; [apply fold_only, Ia|]. split; [apply fold_only, Im|apply fold_in, It].
  Qed.
End Fold.

Lemma renamed_fun c f g : Forall constructible c -> (forall s out, result c s out <-> out = f s) -> Forall (unnoticed g) c -> forall s, f (map g s) = map g (f s).
Proof.
  intros C F U s. assert (R : result c s (f s)) by (apply F; reflexivity). destruct R as (o & R). symmetry. apply F. exists o. apply C99_renaming; assumption.
Qed.
Lemma differ (x y : str) : x <> y -> length x <> length y \/ exists i a b, nth_error x i = Some a /\ nth_error y i = Some b /\ a <> b.
Proof.
  revert y. induction x as [|a x IH]; intros [|b y] N; [congruence|left; discriminate|left; discriminate|].
  destruct (N.eq_dec a b) as [->|Q]; [|right; exists 0, a, b; auto]. destruct (IH y) as [L|(i & u & v & E)]; [congruence|left; cbn; lia|right; exists (S i), u, v; exact E].
Qed.

(** It is enough to look at short texts of the characters the modifiers tell apart and of two others. *)
Theorem C108_finite : forall c d A z z', Forall determined c -> Forall determined d -> Forall (covers A) (c ++ d) ->
  ~ In z A -> ~ In z' A -> z <> z' ->
  (forall t, incl t (z :: z' :: A) -> length t < 2 * (memory_of c * memory_of d) -> agree c d t) ->
  forall t, agree c d t.
Proof.
  intros c d A z z' C D V Hz Hz' N H t. destruct (sized_pipeline c C) as (f & F & _). destruct (sized_pipeline d D) as (g & G & _).
  apply Forall_app in V as [Vc Vd].
  assert (K : forall u, incl u (z :: z' :: A) -> f u = g u).
  { intros u U. apply (agree_eq c d f g F G). apply (C108_short c d (fun x => In x (z :: z' :: A)) C D); [|apply Forall_forall; exact U].
    intros w W. apply H. rewrite Forall_forall in W. exact W. }
  apply (agree_eq c d f g F G). destruct (list_eq_dec N.eq_dec (f t) (g t)) as [E|E]; [exact E|exfalso].
  assert (X : forall p, map (fold_char A z z' p) (f t) = map (fold_char A z z' p) (g t)).
  { intros p. rewrite <- (renamed_fun c f), <- (renamed_fun d g); trivial.
    - apply K. intros x I. apply in_map_iff in I as (y & <- & _). unfold fold_char. destruct (in_dec N.eq_dec y A); [right; right; assumption|]. destruct (N.eqb y p); cbn; tauto.
    - eapply Forall_impl; [|exact D]. intros m M. apply M.
    - eapply Forall_impl; [|exact Vd]. intros m. apply fold_unnoticed; assumption.
    - eapply Forall_impl; [|exact C]. intros m M. apply M.
    - eapply Forall_impl; [|exact Vc]. intros m. apply fold_unnoticed; assumption. }
  destruct (differ _ _ E) as [L|(i & a & b & Ea & Eb & Nab)].
  - apply L. specialize (X z). apply (f_equal (@length _)) in X. rewrite !map_length in X. exact X.
  - specialize (X a). apply (f_equal (fun l => nth_error l i)) in X. rewrite !nth_error_map, Ea, Eb in X. cbn in X. injection X as X.
    unfold fold_char in X. rewrite N.eqb_refl in X. destruct (in_dec N.eq_dec a A) as [Ia|Ia], (in_dec N.eq_dec b A) as [Ib|Ib].
    + contradiction.
    + destruct (N.eqb b a); subst; contradiction.
    + subst. contradiction.
    + destruct (N.eqb_spec b a); congruence.
Qed.
Print Assumptions C108_finite.

(** ** Always a finite question *)
Lemma texts_in A n : forall t, In t (texts A n) <-> incl t A /\ length t < n.
Proof.
  induction n as [|n IH]; intros t; cbn [texts]; [split; [intros []|lia]|]. cbn [In]. rewrite in_flat_map. split.
  - intros [<-|(u & U & I)]; [split; [intros x []|cbn; lia]|]. apply in_map_iff in I as (c & <- & I). apply IH in U as [U L]. split; [|cbn; lia]. intros x [<-|X]; auto.
  - intros [I L]. destruct t as [|c t]; [left; reflexivity|right]. exists t. split; [apply IH; split; [intros x X; apply I; right; exact X|cbn in L; lia]|]. apply (in_map (fun c => c :: t)), I. left. reflexivity.
Qed.
Definition neo_chars : list char :=
  space :: prolonged_mark :: map N.of_nat (seq 0 123) ++ tilde_variants ++ flat_map (fun e => [fst e; snd e]) (neo_conv NEO) ++ flat_map (fun e => fst e ++ snd e) neologdn_lig.
Lemma alnum_listed c : alnum c -> In c (map N.of_nat (seq 0 123)).
Proof. intros H. apply in_map_iff. exists (N.to_nat c). split; [apply N2Nat.id|]. apply in_seq. unfold alnum in H. lia. Qed.
Definition told_apart (m : modifier) : list char :=
  match m with
  | MConv cc => flat_map (fun e => [fst e; snd e]) cc
  | MElim l => l
  | MRed k => [k]
  | MDot => space :: map N.of_nat (seq 0 123)
  | MTrim => [space]
  | MLig l => flat_map (fun e => fst e ++ snd e) l
  | MNeo _ => neo_chars
  end.
Lemma told_covers m A : incl (told_apart m) A -> covers A m.
Proof.
  intros I. destruct m as [cc|el|k| |l| |e]; cbn [told_apart] in I; constructor.
  - intros c d H. split; apply I, in_flat_map; exists (c, d); cbn; tauto.
  - exact I.
  - apply I. left. reflexivity.
  - apply I. left. reflexivity.
  - intros c H. apply I. right. apply alnum_listed, H.
  - intros k v H. split; intros x X; apply I, in_flat_map; exists (k, v); (split; [exact H|]); apply in_or_app; auto.
  - apply I. left. reflexivity.
  - apply I. left. reflexivity.
  - apply I. right. left. reflexivity.
  - intros c H. apply I. right. right. apply in_or_app. left. apply alnum_listed, H.
  - intros c H. apply I. right. right. apply in_or_app. right. apply in_or_app. left. exact H.
  - intros c t H. apply NEO_get in H. apply (hm_get_In N.eqb N.eqb_eq) in H. split; apply I; right; right; apply in_or_app; right; apply in_or_app; right; apply in_or_app; left; apply in_flat_map; exists (c, t); cbn [fst snd In]; tauto.
  - intros a m t C. assert (H : In ([a; m], [t]) neologdn_lig) by (apply lig_rel; eauto 6).
    assert (X : forall x, In x [a; m; t] -> In x A). { intros x X. apply I. right. right. do 3 (apply in_or_app; right). apply in_flat_map. exists ([a; m], [t]). split; [exact H|exact X]. }
    repeat split; apply X; cbn; tauto.
Qed.
Lemma fresh (A : list char) : exists z z', ~ In z A /\ ~ In z' A /\ z <> z'.
Proof.
  set (M := fold_right N.max 0%N A). assert (H : forall x, In x A -> (x <= M)%N).
  { unfold M. clear. induction A as [|a A IH]; intros x []; cbn [fold_right]; [subst; lia|]. specialize (IH x H). lia. }
  exists (M + 1)%N, (M + 2)%N. split; [intros I; apply H in I; lia|]. split; [intros I; apply H in I; lia|lia].
Qed.
(** Two pipelines are the same on all texts, or differ on a short one: one of the two can be found out. *)
Theorem C108_decidable : forall c d, Forall determined c -> Forall determined d ->
  exists l, (forall t, In t l -> length t < 2 * (memory_of c * memory_of d)) /\
    (Forall (agree c d) l \/ Exists (fun t => ~ agree c d t) l) /\
    (Forall (agree c d) l <-> forall t, agree c d t).
Proof.
  intros c d C D. destruct (sized_pipeline c C) as (f & F & _). destruct (sized_pipeline d D) as (g & G & _).
  set (A := flat_map told_apart (c ++ d)). destruct (fresh A) as (z & z' & Hz & Hz' & N).
  exists (texts (z :: z' :: A) (2 * (memory_of c * memory_of d))). split; [intros t T; apply texts_in in T; apply T|]. split.
  - destruct (Forall_Exists_dec (agree c d) (fun t => ltac:(destruct (list_eq_dec N.eq_dec (f t) (g t)) as [E|E]; [left; apply (agree_eq c d f g F G), E|right; intros X; apply E, (agree_eq c d f g F G), X]))
      (texts (z :: z' :: A) (2 * (memory_of c * memory_of d)))) as [X|X]; [left|right]; exact X.
  - split; [|intros H; apply Forall_forall; intros t _; apply H]. intros H. rewrite Forall_forall in H. apply (C108_finite c d A z z' C D); trivial.
    + apply Forall_forall. intros m I. apply told_covers. intros x X. apply in_flat_map. eauto.
    + intros t I L. apply H, texts_in. auto.
Qed.
Print Assumptions C108_decidable.

(** Idempotence, and whether two pipelines can be exchanged, are such questions. *)
Lemma memory_app c d : memory_of (c ++ d) = memory_of c * memory_of d.
Proof.
  induction c as [|m c IH]; [symmetry; apply Nat.mul_1_l|].
  change (memory m * memory_of (c ++ d) = memory m * memory_of c * memory_of d). rewrite IH. apply Nat.mul_assoc.
Qed.
Theorem C108_idempotent : forall c, Forall determined c ->
  (forall t mid out, length t < 2 * (memory_of c * (memory_of c * memory_of c)) -> result c t mid -> result c mid out -> out = mid) ->
  forall t mid out, result c t mid -> result c mid out -> out = mid.
Proof.
  intros c C H t mid out R R'. destruct (sized_pipeline c C) as (f & F & _).
  assert (X : forall t, agree c (c ++ c) t).
  { intros u. apply (C108_short c (c ++ c) (fun _ => True) C); [apply Forall_app; split; exact C| |apply Forall_forall; auto].
    intros w _ L out'. rewrite memory_app in L. rewrite result_app. rewrite F. split.
    - intros ->. exists (f w). split; [apply F; reflexivity|]. apply F. symmetry. apply (H w (f w)); [exact L|apply F; reflexivity|apply F; reflexivity].
    - intros (m & A & B). rewrite (H w m out' L A B). apply F. exact A. }
  assert (Q : result (c ++ c) t out) by (apply result_app; eauto). apply X in Q. apply F in Q. apply F in R. congruence.
Qed.
Print Assumptions C108_idempotent.
Theorem C108_exchange : forall c d, Forall determined c -> Forall determined d ->
  (forall t, length t < 2 * (memory_of c * memory_of d * (memory_of d * memory_of c)) -> agree (c ++ d) (d ++ c) t) ->
  forall t, agree (c ++ d) (d ++ c) t.
Proof.
  intros c d C D H t. apply (C108_short _ _ (fun _ => True)); [apply Forall_app; auto|apply Forall_app; auto| |apply Forall_forall; auto].
  intros u _ L. rewrite !memory_app in L. apply H, L.
Qed.
Print Assumptions C108_exchange.

(** No length is enough for all pipelines. *)
Lemma replaced_short k v s : length s < length k -> replaced (rules [(k, v)]) s s.
Proof.
  induction s as [|x s IH]; intros L; [constructor|]. apply rep_miss; [|apply IH; cbn in L; lia].
  intros k' v' [E|[]] (r & E'). injection E as <- <-. apply (f_equal (@length _)) in E'. rewrite app_length in E'. lia.
Qed.
Lemma one_rule n x y : x <> y -> determined (MLig [(repeat x (S n), [y])]).
Proof.
  intros N. split; [intros e E; discriminate E|]. intros l E. injection E as <-. split; [constructor; [intros []|constructor]|]. split; [|split].
  - intros k v [E|[]]. injection E as <- <-. split; discriminate.
  - intros k v k' v' [E|[]] [E'|[]] Q. congruence.
  - intros k v k' v' c [E|[]] [E'|[]] I J. injection E as <- <-. injection E' as <- <-. destruct I as [<-|[]]. apply (repeat_spec (S n)) in J. congruence.
Qed.
Theorem C108_no_fixed_length_refuted : forall n, exists c d, Forall determined c /\ Forall determined d /\
  (forall t, length t < n -> agree c d t) /\ exists t, ~ agree c d t.
Proof.
  intros n. set (l := [(repeat 97%N (S n), [98%N])]). pose proof (one_rule n 97%N 98%N ltac:(discriminate)) as D. fold l in D.
  exists [MLig l], []. split; [constructor; [exact D|constructor]|]. split; [constructor|].
  destruct (proj2 D l eq_refl) as [ND NI].
  assert (X : forall s out, result [MLig l] s out <-> replaced (rules l) s out).
  { intros s out. rewrite (does_ligatures l ND NI s out). split; [intros ->; apply lig_replaced; assumption|].
    intros R. apply (replaced_det (rules l) (rules_det l ND NI) s); [exact R|apply lig_replaced; assumption]. }
  assert (Y : forall s out, result [] s out <-> out = s) by (intros s out; unfold result, normalize; cbn; split; [intros (o & E); congruence|intros ->; exists no_order; reflexivity]).
  split.
  - intros t L out. rewrite X, Y. assert (S : replaced (rules l) t t) by (apply replaced_short; rewrite repeat_length; lia). split.
    + intros R. exact (replaced_det (rules l) (rules_det l ND NI) t _ _ R S).
    + intros ->. exact S.
  - exists (repeat 97%N (S n)). intros A. specialize (A [98%N]). rewrite X, Y in A.
    assert (R : replaced (rules l) (repeat 97%N (S n)) [98%N]).
    { rewrite <- (app_nil_r (repeat 97%N (S n))). change [98%N] with ([98%N] ++ []). apply rep_hit; [discriminate|left; reflexivity|constructor]. }
    apply A in R. discriminate R.
Qed.
Print Assumptions C108_no_fixed_length_refuted.

(** Forty texts show that reducing and then eliminating a character is eliminating it. *)
Example C108_case : forall t, agree [MRed 97%N; MElim [97%N]] [MElim [97%N]] t.
Proof.
  apply (C108_finite _ _ [97%N] 98%N 99%N).
  - repeat constructor; try (intros e E; discriminate E); discriminate.
  - repeat constructor; try (intros e E; discriminate E); discriminate.
  - cbn [app]. constructor; [constructor; left; reflexivity|]. constructor; [constructor; intros x H; exact H|]. constructor; [constructor; intros x H; exact H|constructor].
  - intros [E|[]]. discriminate E.
  - intros [E|[]]. discriminate E.
  - discriminate.
  - intros t I L out.
    assert (T : forallb (fun t => str_eqb (filter (fun c => negb (mem N.eqb c [97%N])) (red_rec 97%N false t)) (filter (fun c => negb (mem N.eqb c [97%N])) t)) (texts [98; 99; 97]%N 4) = true) by (vm_compute; reflexivity).
    rewrite forallb_forall in T. specialize (T t). rewrite texts_in in T. specialize (T (conj I L)). apply str_eqb_eq in T.
    rewrite (does_two _ _ _ _ (does_red 97%N) (does_elim [97%N]) t out), (does_elim [97%N] t out), T. reflexivity.
Qed.
(** Two pipelines that agree on a text of two characters and differ on one of three. *)
Example C108_later : agree [MRed 97%N; MElim [98%N]] [MElim [98%N]; MRed 97%N] [97; 98]%N /\ ~ agree [MRed 97%N; MElim [98%N]] [MElim [98%N]; MRed 97%N] [97; 98; 97]%N.
Proof.
  split.
  - intros out. rewrite (does_two _ _ _ _ (does_red 97%N) (does_elim [98%N])), (does_two _ _ _ _ (does_elim [98%N]) (does_red 97%N)). vm_compute. tauto.
  - intros H. specialize (H [97%N]). rewrite (does_two _ _ _ _ (does_red 97%N) (does_elim [98%N])), (does_two _ _ _ _ (does_elim [98%N]) (does_red 97%N)) in H.
    vm_compute in H. destruct H as [_ H]. specialize (H eq_refl). discriminate H.
Qed.
