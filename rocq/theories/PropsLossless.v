(** C112: normalisations that lose nothing. *)
From Verif Require Import Base Utf8 StrOps Converter Eliminator Reducer Dotted TrimMod Ligature Neologdn ModifierKind ChanomaModel
  CharSpec Spec BaseFacts CharsetFacts ConverterFacts ConverterProps SimpleFacts SimpleProps LigFacts NeoFacts NeoProps PropsConverter PropsNeo PropsPipeline PropsLig
  CommProps TableFacts SameSpec SameFacts SameNeo PropsSame Machines ShortSpec ShortFacts PropsShort OrderSpec PropsOrderShows LosslessSpec.
From Coq Require Import Lia.
Opaque neo_text.

(** Different texts have different results. *)
Definition loses_nothing (c : chanoma) : Prop :=
  forall s t out, valid_str s -> valid_str t -> result c s out -> result c t out -> s = t.

Lemma stage_determined m : text_stage m -> determined m.
Proof.
  intros H. split; [|intros l ->; contradiction H]. intros n ->. exact H.
Qed.
Lemma stages_do c : Forall text_stage c -> exists f, forall s out, result c s out <-> out = f s.
Proof.
  intros H. destruct (sized_pipeline c) as (f & F & _); [|exists f; exact F].
  apply Forall_impl with (2 := H). exact stage_determined.
Qed.
Lemma does_injective m f : does m f -> (loses_nothing [m] <-> forall s t, valid_str s -> valid_str t -> f s = f t -> s = t).
Proof.
  intros D. split.
  - intros H s t Vs Vt E. apply (H s t (f s) Vs Vt); apply D; [reflexivity|exact E].
  - intros H s t out Vs Vt R R'. apply D in R. apply D in R'. apply (H s t Vs Vt). congruence.
Qed.
Lemma conv1_in cc a : NoDup (map fst cc) -> In (a, conv1 cc a) cc \/ (conv1 cc a = a /\ forall b, ~ In (a, b) cc).
Proof.
  intros N. unfold conv1. destruct (conv_get cc a) as [t|] eqn:E.
  - left. apply conv_get_iff in E; assumption.
  - right. split; [reflexivity|]. intros b I. apply (conv_get_iff cc a b N) in I. congruence.
Qed.
Lemma conv1_of cc a b : NoDup (map fst cc) -> In (a, b) cc -> conv1 cc a = b.
Proof. intros N I. apply (conv_get_iff cc a b N) in I. unfold conv1. rewrite I. reflexivity. Qed.
Lemma exchanging_injective cc : NoDup (map fst cc) -> exchanging cc -> forall a b, conv1 cc a = conv1 cc b -> a = b.
Proof.
  intros N [K U] a b E. destruct (conv1_in cc a N) as [A|[A NA]]; destruct (conv1_in cc b N) as [B|[B NB]].
  - apply (U a b (conv1 cc a)); [exact A|]. rewrite E. exact B.
  - destruct (K _ _ A) as (x & X). rewrite E, B in X. destruct (NB _ X).
  - destruct (K _ _ B) as (x & X). rewrite <- E, A in X. destruct (NA _ X).
  - congruence.
Qed.
Lemma map_injective (f : char -> char) : (forall a b, f a = f b -> a = b) -> forall s t, map f s = map f t -> s = t.
Proof.
  intros H. induction s as [|a s IH]; intros [|b t] E; try discriminate; [reflexivity|].
  injection E as E1 E2. rewrite (H a b E1), (IH t E2). reflexivity.
Qed.
Lemma valid1 c : is_scalar c = true -> valid_str [c].
Proof. intros H. constructor; [exact H|constructor]. Qed.

(** ** Single modifiers *)
Theorem C112_conversion : forall cc, text_stage (MConv cc) -> (loses_nothing [MConv cc] <-> exchanging cc).
Proof.
  intros cc [N S]. rewrite (does_injective _ _ (does_conv cc)). split.
  - intros H. assert (J : forall a b, is_scalar a = true -> is_scalar b = true -> conv1 cc a = conv1 cc b -> a = b).
    { intros a b Sa Sb E. specialize (H [a] [b] (valid1 a Sa) (valid1 b Sb)). cbn [map] in H. rewrite E in H. specialize (H eq_refl). congruence. }
    split.
    + intros a b I. destruct (S a b I) as [Sa Sb]. destruct (conv1_in cc b N) as [B|[B NB]]; [eauto|].
      assert (E : a = b) by (apply J; trivial; rewrite B; apply conv1_of; assumption). subst b. destruct (NB _ I).
    + intros a a' b I I'. apply J; [apply (S a b I)|apply (S a' b I')|]. rewrite (conv1_of cc a b N I), (conv1_of cc a' b N I'). reflexivity.
  - intros H s t _ _. apply map_injective, exchanging_injective; assumption.
Qed.
Print Assumptions C112_conversion.
Theorem C112_elimination : forall el, text_stage (MElim el) -> (loses_nothing [MElim el] <-> el = []).
Proof.
  intros el V. rewrite (does_injective _ _ (does_elim el)). split.
  - intros H. destruct el as [|c el]; [reflexivity|]. inversion V as [|x l Sc _]; subst.
    specialize (H [c] [] (valid1 c Sc) (Forall_nil _)). cbn [filter mem existsb] in H. rewrite N.eqb_refl in H. discriminate (H eq_refl).
  - intros -> s t _ _ E. rewrite !filter_all in E by reflexivity. exact E.
Qed.
Print Assumptions C112_elimination.
Lemma space_valid : valid_str [SPACE].
Proof. repeat constructor. Qed.
Lemma neo_space : neo_text [SPACE] = neo_text [].
Proof. vm_compute. reflexivity. Qed.
(** The other modifiers always lose something. *)
Theorem C112_others : forall m, text_stage m -> (forall cc, m <> MConv cc) -> (forall el, m <> MElim el) -> ~ loses_nothing [m].
Proof.
  intros m T C E. destruct m as [cc|el|k| |l| |n].
  - destruct (C cc eq_refl).
  - destruct (E el eq_refl).
  - rewrite (does_injective _ _ (does_red k)). intros H. cbn [text_stage] in T.
    assert (X : [k; k] = [k]). { apply H; [repeat constructor; exact T|apply valid1, T|]. cbn [red_rec]. rewrite !N.eqb_refl. reflexivity. }
    discriminate X.
  - rewrite (does_injective _ _ does_dot). intros H. assert (X : [SPACE] = []) by (apply H; [exact space_valid|constructor|reflexivity]). discriminate X.
  - contradiction T.
  - rewrite (does_injective _ _ does_trim). intros H. assert (X : [SPACE] = []) by (apply H; [exact space_valid|constructor|reflexivity]). discriminate X.
  - rewrite (neo_constructible n) by (intros n' Q; injection Q as <-; exact T). rewrite (does_injective _ _ does_neologdn). intros H.
    assert (X : [SPACE] = []) by (apply H; [exact space_valid|constructor|exact neo_space]). discriminate X.
Qed.
Print Assumptions C112_others.
Lemma stage_reversible m : text_stage m -> (loses_nothing [m] <-> reversible m).
Proof.
  intros T. destruct m as [cc|el|k| |l| |n]; cbn [reversible].
  - exact (C112_conversion cc T).
  - exact (C112_elimination el T).
  - split; [|tauto]. apply C112_others; [exact T|discriminate..].
  - split; [|tauto]. apply C112_others; [exact T|discriminate..].
  - contradiction T.
  - split; [|tauto]. apply C112_others; [exact T|discriminate..].
  - split; [|tauto]. apply C112_others; [exact T|discriminate..].
Qed.

(** ** Undoing *)
Definition back (m : modifier) : modifier :=
  match m with MConv cc => MConv (map (fun p => (snd p, fst p)) cc) | m => m end.
Lemma back_fst (cc : list (char * char)) : map fst (map (fun p => (snd p, fst p)) cc) = map snd cc.
Proof. rewrite map_map. reflexivity. Qed.
Lemma nodup_snd (cc : list (char * char)) : NoDup (map fst cc) -> (forall a a' b, In (a, b) cc -> In (a', b) cc -> a = a') -> NoDup (map snd cc).
Proof.
  induction cc as [|[a b] cc IH]; cbn [map fst snd]; intros N U; [constructor|]. inversion N as [|x l NI N']; subst. constructor.
  - intros I. apply in_map_iff in I as ([a' b'] & E & I). cbn [snd] in E. subst b'. apply NI. apply in_map_iff. exists (a', b). split; [|exact I]. cbn [fst].
    apply (U a' a b); [right; exact I|left; reflexivity].
  - apply IH; [exact N'|]. intros c c' d I I'. apply (U c c' d); right; assumption.
Qed.
Lemma in_back cc a b : In (b, a) (map (fun p : char * char => (snd p, fst p)) cc) <-> In (a, b) cc.
Proof.
  rewrite in_map_iff. split.
  - intros ([x y] & E & I). cbn [fst snd] in E. injection E as -> ->. exact I.
  - intros I. exists (a, b). split; [reflexivity|exact I].
Qed.
Lemma exchanging_onto cc : NoDup (map fst cc) -> exchanging cc -> forall a b, In (a, b) cc -> exists a', In (a', a) cc.
Proof.
  intros N [K U] a b I. pose proof (nodup_snd cc N U) as N'.
  assert (X : incl (map fst cc) (map snd cc)).
  { apply NoDup_length_incl; [exact N'|rewrite !map_length; apply le_n|]. intros x X. apply in_map_iff in X as ([c d] & E & X). cbn [snd] in E. subst d.
    destruct (K _ _ X) as (y & Y). apply in_map_iff. exists (x, y). auto. }
  assert (Y : In a (map snd cc)) by (apply X, in_map_iff; exists (a, b); auto).
  apply in_map_iff in Y as ([c d] & E & Y). cbn [snd] in E. subst d. eauto.
Qed.
Lemma back_undoes cc : NoDup (map fst cc) -> exchanging cc -> forall a,
  conv1 (map (fun p => (snd p, fst p)) cc) (conv1 cc a) = a /\ conv1 cc (conv1 (map (fun p => (snd p, fst p)) cc) a) = a.
Proof.
  intros N X a. pose proof (exchanging_onto cc N X) as O. destruct X as [K U]. pose proof (nodup_snd cc N U) as N'.
  rewrite <- back_fst in N'. split.
  - destruct (conv1_in cc a N) as [A|[A NA]].
    + apply conv1_of; [exact N'|]. apply in_back, A.
    + rewrite A. destruct (conv1_in _ a N') as [B|[B _]]; [|exact B]. apply (proj1 (in_back _ _ _)) in B. destruct (K _ _ B) as (y & Y). destruct (NA _ Y).
  - destruct (conv1_in _ a N') as [B|[B NB]].
    + apply (proj1 (in_back _ _ _)) in B. apply conv1_of; [exact N|exact B].
    + rewrite B. destruct (conv1_in cc a N) as [A|[A _]]; [|exact A]. destruct (O _ _ A) as (y & Y). apply (proj2 (in_back cc y a)) in Y. destruct (NB _ Y).
Qed.
Lemma back_stage m : text_stage m -> reversible m -> text_stage (back m) /\ reversible (back m).
Proof.
  destruct m as [cc|el|k| |l| |n]; cbn [text_stage reversible back]; try contradiction; [|auto].
  intros [N S] X. pose proof (exchanging_onto cc N X) as O. destruct X as [K U]. split; split.
  - rewrite back_fst. apply nodup_snd; assumption.
  - intros a b I. apply (proj1 (in_back _ _ _)) in I. apply and_comm, S, I.
  - intros a b I. apply (proj1 (in_back _ _ _)) in I. destruct (O _ _ I) as (y & Y). exists y. apply in_back, Y.
  - intros a a' b I I'. apply (proj1 (in_back _ _ _)) in I. apply (proj1 (in_back _ _ _)) in I'. rewrite <- (conv1_of cc b a N I), <- (conv1_of cc b a' N I'). reflexivity.
Qed.
Lemma stage_undone m s out : text_stage m -> reversible m ->
  (result [m; back m] s out <-> out = s) /\ (result [back m; m] s out <-> out = s).
Proof.
  destruct m as [cc|el|k| |l| |n]; cbn [text_stage reversible back]; try contradiction.
  - intros [N S] X. pose proof (back_undoes cc N X) as B. rewrite !(does_two _ _ _ _ (does_conv _) (does_conv _)), !map_map.
    assert (E : forall f : char -> char, (forall a, f a = a) -> map f s = s) by (intros f F; rewrite (map_ext f (fun a => a) F); apply map_id).
    rewrite !E by (intros a; apply B). split; reflexivity.
  - intros _ ->. rewrite !(does_two _ _ _ _ (does_elim _) (does_elim _)), !filter_all by reflexivity. split; reflexivity.
Qed.
Lemma result_none s out : result [] s out <-> out = s.
Proof. unfold result, normalize. cbn. split; [intros (o & E); congruence|intros ->; exists no_order; reflexivity]. Qed.
Lemma stages_undone c : Forall text_stage c -> Forall reversible c -> exists d, Forall text_stage d /\ Forall reversible d /\
  forall s out, (result (c ++ d) s out <-> out = s) /\ (result (d ++ c) s out <-> out = s).
Proof.
  induction c as [|m c IH]; intros T R.
  - exists []. split; [constructor|]. split; [constructor|]. intros s out. split; apply result_none.
  - inversion T as [|x l Tm Tc]; subst. inversion R as [|x l Rm Rc]; subst. destruct (IH Tc Rc) as (d & Td & Rd & H).
    destruct (back_stage m Tm Rm) as [Tb Rb]. exists (d ++ [back m]). split; [apply Forall_app; auto|]. split; [apply Forall_app; auto|].
    intros s out. split.
    + change (result ([m] ++ c ++ d ++ [back m]) s out <-> out = s). rewrite (app_assoc c d). rewrite result_app. split.
      * intros (x & X & Y). apply result_app in Y as (y & Y & Z). apply H in Y. subst y. apply (proj1 (proj1 (stage_undone m s out Tm Rm))). apply (result_app [m] [back m]). eauto.
      * intros ->. pose proof (proj2 (proj1 (stage_undone m s s Tm Rm)) eq_refl) as Q. apply (result_app [m] [back m]) in Q as (x & X & Z).
        exists x. split; [exact X|]. apply result_app. exists x. split; [apply H; reflexivity|exact Z].
    + rewrite <- app_assoc. change ([back m] ++ m :: c) with ([back m; m] ++ c). rewrite result_app. split.
      * intros (x & X & Y). apply result_app in Y as (y & Y & Z). apply (proj1 (proj2 (stage_undone m x y Tm Rm))) in Y. subst y. apply (proj1 (proj2 (H s out))). apply result_app. eauto.
      * intros ->. pose proof (proj2 (proj2 (H s s)) eq_refl) as Q. apply result_app in Q as (x & X & Z).
        exists x. split; [exact X|]. apply result_app. exists x. split; [apply (proj2 (proj2 (stage_undone m x x Tm Rm))); reflexivity|exact Z].
Qed.
Lemma reversible_valid m : text_stage m -> reversible m -> forall s, valid_str s -> exists t, valid_str t /\ result [m] t s.
Proof.
  intros T R s V. destruct (back_stage m T R) as [Tb _]. destruct (stages_do [back m]) as (f & F); [constructor; [exact Tb|constructor]|].
  exists (f s). split.
  - destruct m as [cc|el|k| |l| |n]; cbn [reversible back] in *; try contradiction R.
    + assert (E : f s = map (conv1 (map (fun p => (snd p, fst p)) cc)) s) by (apply (does_conv _ s (f s)), F; reflexivity). rewrite E.
      apply Forall_forall. intros x X. apply in_map_iff in X as (a & <- & A). destruct Tb as [N S].
      destruct (conv1_in (map (fun p => (snd p, fst p)) cc) a N) as [I|[-> _]]; [apply (S _ _ I)|]. apply (proj1 (Forall_forall _ s) V a A).
    + assert (E : f s = filter (fun c => negb (mem N.eqb c el)) s) by (apply (does_elim _ s (f s)), F; reflexivity). rewrite E, R, filter_all by reflexivity. exact V.
  - pose proof (proj2 (proj2 (stage_undone m s s T R)) eq_refl) as Q. apply (result_app [back m] [m]) in Q as (x & X & Y). apply F in X. subst x. exact Y.
Qed.

(** ** Pipelines *)
(** A pipeline without ligature maps loses nothing exactly if none of its stages does. *)
Theorem C112_pipeline : forall c, Forall text_stage c -> (loses_nothing c <-> Forall reversible c).
Proof.
  intros c T. split.
  - revert T. induction c as [|m c IH]; intros T H; [constructor|]. inversion T as [|x l Tm Tc]; subst.
    destruct (stages_do c Tc) as (f & F). destruct (stages_do [m]) as (g & G); [constructor; [exact Tm|constructor]|].
    assert (J : loses_nothing [m]).
    { intros s t out Vs Vt R R'. apply (H s t (f out) Vs Vt); change (m :: c) with ([m] ++ c); apply result_app; exists out; (split; [assumption|apply F; reflexivity]). }
    apply stage_reversible in J; [|exact Tm]. constructor; [exact J|]. apply IH; [exact Tc|].
    intros s t out Vs Vt R R'. destruct (reversible_valid m Tm J s Vs) as (s0 & V0 & R0). destruct (reversible_valid m Tm J t Vt) as (t0 & W0 & Q0).
    assert (E : s0 = t0).
    { apply (H s0 t0 out V0 W0); change (m :: c) with ([m] ++ c); apply result_app; eauto. }
    subst t0. apply G in R0. apply G in Q0. congruence.
  - intros R. destruct (stages_undone c T R) as (d & Td & _ & D). destruct (stages_do d Td) as (g & G).
    intros s t out _ _ R1 R2.
    assert (A : forall x, result c x out -> g out = x). { intros x X. apply (proj1 (proj1 (D x (g out)))). apply result_app. exists out. split; [exact X|apply G; reflexivity]. }
    rewrite <- (A s R1). apply A, R2.
Qed.
Print Assumptions C112_pipeline.
(** Then another such pipeline undoes it, before or after; and whatever can be undone, by any pipeline, loses nothing. *)
Theorem C112_undone : forall c, Forall text_stage c -> loses_nothing c -> exists d, Forall text_stage d /\ loses_nothing d /\
  forall s out, (result (c ++ d) s out <-> out = s) /\ (result (d ++ c) s out <-> out = s).
Proof.
  intros c T L. apply (C112_pipeline c T) in L. destruct (stages_undone c T L) as (d & Td & Rd & D). exists d. split; [exact Td|]. split; [apply C112_pipeline; assumption|exact D].
Qed.
Print Assumptions C112_undone.
Theorem C112_undone_only : forall c d, Forall text_stage c -> (forall s out, valid_str s -> (result (c ++ d) s out <-> out = s)) -> loses_nothing c.
Proof.
  intros c d T H s t out Vs Vt R R'. destruct (stages_do c T) as (f & F). pose proof (proj2 (H s s Vs) eq_refl) as Q.
  apply result_app in Q as (x & X & Y). apply F in X. apply F in R. symmetry in R. subst x. rewrite R in Y.
  apply (H t s Vt). apply result_app. eauto.
Qed.
Print Assumptions C112_undone_only.
Lemma preset_loses o ch : chanoma_preset o = Ok ch -> exists s t out, valid_str s /\ valid_str t /\ s <> t /\ result ch s out /\ result ch t out.
Proof.
  intros H. exists [0xFF21%N], [0x41%N], [0x41%N]. split; [repeat constructor|]. split; [repeat constructor|]. split; [discriminate|].
  rewrite chanoma_preset_eq in H. apply Ok_inj in H. subst ch. split; apply does_conv; vm_compute; reflexivity.
Qed.
(** The presets lose something. *)
Theorem C112_presets : forall o ch, chanoma_preset o = Ok ch \/ chanoma_neologdn o = Ok ch -> ~ loses_nothing ch.
Proof.
  intros o ch [H|H] L.
  - destruct (preset_loses o ch H) as (s & t & out & Vs & Vt & N & R & R'). exact (N (L s t out Vs Vt R R')).
  - rewrite chanoma_neologdn_eq in H. apply Ok_inj in H. subst ch. revert L. apply C112_others; [|discriminate..]. exists o_id. apply neologdn_new_eq.
Qed.
Print Assumptions C112_presets.

(** ** Ligatures *)
Lemma does_one k v : does (MLig [(k, v)]) (replace k v).
Proof.
  intros s out. rewrite result_lig. split.
  - intros (p & P & ->). apply Permutation_length_1_inv in P. subst p. reflexivity.
  - intros ->. exists [(k, v)]. split; [apply Permutation_refl|reflexivity].
Qed.
Lemma replace_key k v : k <> [] -> replace k v k = v.
Proof.
  intros N. destruct k as [|c k]; [destruct N; reflexivity|]. unfold replace. rewrite <- (app_nil_r (c :: k)) at 2. rewrite replace_scan_hit by exact N. apply app_nil_r.
Qed.
Lemma replace_absent k v s : k <> [] -> ~ occurs k s -> replace k v s = s.
Proof. intros N O. apply replace_spec; [exact N|]. apply replaced_id. intros k' v' [-> ->]. auto. Qed.
(** A key that can be read off its value is necessary... *)
Theorem C112_ligature : forall k v, k <> [] -> valid_str k -> valid_str v -> loses_nothing [MLig [(k, v)]] -> occurs k v.
Proof.
  intros k v N Vk Vv H. rewrite (does_injective _ _ (does_one k v)) in H.
  destruct (list_eq_dec N.eq_dec k v) as [->|D]; [exists 0, [], []; rewrite app_nil_r; auto|].
  assert (X : {occurs k v} + {~ occurs k v}).
  { destruct (in_dec Nat.eq_dec 0 (map (fun i => if list_eq_dec N.eq_dec (firstn (length k) (skipn i v)) k then 0 else 1) (seq 0 (S (length v))))) as [I|I].
    - left. apply in_map_iff in I as (i & E & I). destruct (list_eq_dec _ _ _) as [Q|Q]; [|discriminate E]. apply in_seq in I.
      exists i, (firstn i v), (skipn (length k) (skipn i v)). split; [|rewrite firstn_length; lia]. rewrite <- Q at 1. rewrite firstn_skipn, firstn_skipn. reflexivity.
    - right. intros (i & a & b & E & L). apply I, in_map_iff. exists i. split; [|apply in_seq; rewrite E, !app_length; lia].
      destruct (list_eq_dec _ _ _) as [Q|Q]; [reflexivity|]. destruct Q. rewrite E, <- L, skipn_app, skipn_all, Nat.sub_diag. cbn [app skipn].
      rewrite firstn_app, firstn_all, Nat.sub_diag, firstn_O. apply app_nil_r. }
  destruct X as [X|X]; [exact X|]. destruct D. apply (H k v Vk Vv). rewrite replace_key, replace_absent; trivial.
Qed.
Print Assumptions C112_ligature.
Lemma first_in (a : char) : forall s : str, In a s -> exists x y, s = x ++ a :: y /\ ~ In a x.
Proof.
  induction s as [|c s IH]; intros I; [destruct I|]. destruct (N.eq_dec c a) as [->|N]; [exists [], s; split; [reflexivity|intros []]|].
  destruct I as [->|I]; [congruence|]. destruct (IH I) as (x & y & -> & H). exists (c :: x), y. split; [reflexivity|]. intros [Q|Q]; [congruence|exact (H Q)].
Qed.
Lemma first_unique (a : char) (x : str) : forall x' y y', ~ In a x -> ~ In a x' -> x ++ a :: y = x' ++ a :: y' -> x = x' /\ y = y'.
Proof.
  induction x as [|c x IH]; intros [|c' x'] y y' H H' E; cbn [app] in E.
  - injection E as <-. auto.
  - injection E as E1 E2. destruct H'. left. congruence.
  - injection E as E1 E2. destruct H. left. congruence.
  - injection E as E1 E2. destruct (IH x' y y') as [-> ->]; [intros I; apply H; right; exact I|intros I; apply H'; right; exact I|exact E2|]. subst. auto.
Qed.
Lemma put_injective a v : In a v -> forall s t, put a v s = put a v t -> s = t.
Proof.
  intros I. destruct (first_in a v I) as (x & y & Ev & Nx).
  assert (P : forall p r, ~ In a p -> put a v (p ++ a :: r) = (p ++ x) ++ a :: (y ++ put a v r)).
  { intros p r Np. rewrite put_app, (put_none a v p Np). unfold put at 1. cbn [flat_map]. rewrite N.eqb_refl. fold (put a v r). rewrite Ev at 1. rewrite <- !app_assoc. reflexivity. }
  assert (J : forall s, In a s -> In a (put a v s)). { intros s Is. destruct (first_in a s Is) as (p & r & -> & Np). rewrite (P p r Np). apply in_or_app. right. left. reflexivity. }
  intros s. remember (length s) as n eqn:L. revert s L. induction n as [n IH] using (well_founded_induction Wf_nat.lt_wf). intros s L t E.
  destruct (in_dec N.eq_dec a s) as [Is|Is]; destruct (in_dec N.eq_dec a t) as [It|It].
  - destruct (first_in a s Is) as (p & r & -> & Np). destruct (first_in a t It) as (p' & r' & -> & Np'). rewrite (P p r Np), (P p' r' Np') in E.
    apply first_unique in E as [E1 E2]; [|intros Q; apply in_app_or in Q as [Q|Q]; tauto..]. apply app_inv_tail in E1. apply app_inv_head in E2. subst p'.
    rewrite app_length in L. cbn [length] in L. rewrite (IH (length r)) with (s := r) (t := r'); trivial. lia.
  - apply J in Is. rewrite E, (put_none a v t It) in Is. contradiction.
  - apply J in It. rewrite <- E, (put_none a v s Is) in It. contradiction.
  - rewrite (put_none a v s Is), (put_none a v t It) in E. exact E.
Qed.
Lemma empty_injective v : forall s t, replace_empty v s = replace_empty v t -> s = t.
Proof.
  induction s as [|a s IH]; intros [|b t] E; cbn [replace_empty] in E; [reflexivity|..].
  - apply (f_equal (@length char)) in E. rewrite app_length in E. cbn [length] in E. lia.
  - apply (f_equal (@length char)) in E. rewrite app_length in E. cbn [length] in E. lia.
  - apply app_inv_head in E. injection E as -> E. rewrite (IH t E). reflexivity.
Qed.
(** ... and for keys of at most one character also sufficient. *)
Theorem C112_short_key : forall k v, length k <= 1 -> valid_str k -> valid_str v -> (loses_nothing [MLig [(k, v)]] <-> occurs k v).
Proof.
  intros k v L Vk Vv. destruct k as [|a [|b k]]; [| |cbn [length] in L; lia].
  - split; [intros _; exists 0, [], v; auto|]. intros _. rewrite (does_injective _ _ (does_one [] v)). intros s t _ _. apply empty_injective.
  - split; [apply C112_ligature; [discriminate|exact Vk|exact Vv]|]. intros (i & x & y & -> & _). rewrite (does_injective _ _ (does_one [a] _)). intros s t _ _.
    rewrite !replace_put. apply put_injective. apply in_or_app. right. left. reflexivity.
Qed.
Print Assumptions C112_short_key.
(** Not so for longer keys. *)
Theorem C112_long_key_refuted : exists k v, valid_str k /\ valid_str v /\ occurs k v /\ ~ loses_nothing [MLig [(k, v)]].
Proof.
  exists (lit "ab"), (lit "baba"). split; [repeat constructor|]. split; [repeat constructor|]. split; [exists 1, (lit "b"), (lit "a"); auto|].
  rewrite (does_injective _ _ (does_one _ _)). intros H. specialize (H (lit "abba") (lit "baab")). assert (E : lit "abba" = lit "baab") by (apply H; [repeat constructor..|reflexivity]). discriminate E.
Qed.
Print Assumptions C112_long_key_refuted.
(** With ligatures a pipeline may lose nothing although one of its stages does. *)
Theorem C112_stages_refuted : exists a b, loses_nothing [a; b] /\ ~ loses_nothing [b] /\ forall s out, result [a; b] s out <-> out = s.
Proof.
  exists (MLig [(lit "a", lit "az")]), (MLig [(lit "az", lit "a")]).
  assert (U : forall s out, result [MLig [(lit "a", lit "az")]; MLig [(lit "az", lit "a")]] s out <-> out = s).
  { intros s out. rewrite (does_two _ _ _ _ (does_one _ _) (does_one _ _)).
    assert (E : replace (lit "az") (lit "a") (replace (lit "a") (lit "az") s) = s); [|rewrite E; reflexivity].
    rewrite (replace_put 97%N). induction s as [|c s IH]; [reflexivity|]. unfold put. cbn [flat_map]. fold (put 97%N (lit "az") s).
    destruct (N.eqb_spec 97%N c) as [E|D].
    - subst c. change (replace_scan (lit "az") (lit "a") 0 (lit "az" ++ put 97%N (lit "az") s) = 97%N :: s).
      rewrite replace_scan_hit by discriminate. change (replace_scan (lit "az") (lit "a") 0 (put 97%N (lit "az") s)) with (replace (lit "az") (lit "a") (put 97%N (lit "az") s)).
      rewrite IH. reflexivity.
    - change (replace_scan (lit "az") (lit "a") 0 (c :: put 97%N (lit "az") s) = c :: s). rewrite replace_scan_miss.
      + change (replace_scan (lit "az") (lit "a") 0 (put 97%N (lit "az") s)) with (replace (lit "az") (lit "a") (put 97%N (lit "az") s)). rewrite IH. reflexivity.
      + intros (r & Q). injection Q as Q _. congruence. }
  split; [|split; [|exact U]].
  - intros s t out _ _ R R'. apply U in R. apply U in R'. congruence.
  - intros H. assert (X : occurs (lit "az") (lit "a")) by (apply C112_ligature; [discriminate|repeat constructor|repeat constructor|exact H]).
    destruct X as (i & x & y & E & _). apply (f_equal (@length char)) in E. rewrite !app_length in E. cbn in E. lia.
Qed.
Print Assumptions C112_stages_refuted.

(** Exchanging two characters and then going round three others loses nothing and can be undone. *)
Example C112_case :
  let c := [MConv [(97, 98); (98, 97)]; MElim []; MConv [(97, 99); (99, 100); (100, 97)]]%N in
  let d := [MConv [(99, 97); (100, 99); (97, 100)]; MConv [(98, 97); (97, 98)]]%N in
  Forall text_stage c /\ loses_nothing c /\ normalize false no_order c (lit "abcd") = Ok (lit "bcda") /\
  normalize false no_order (c ++ d) (lit "abcd") = Ok (lit "abcd") /\
  ~ loses_nothing [MConv [(97, 98)]%N] /\ loses_nothing [MLig [(lit "a", lit "xay")]].
Proof.
  assert (T : Forall text_stage [MConv [(97, 98); (98, 97)]; MElim []; MConv [(97, 99); (99, 100); (100, 97)]]%N).
  { constructor; [|constructor; [constructor|constructor; [|constructor]]]; cbn [text_stage].
    - split; [cbn; constructor; [|constructor; [intros []|constructor]]; cbn; intros [Q|[]]; discriminate Q|].
      intros a b H. cbn in H. destruct H as [H|[H|[]]]; injection H as <- <-; split; reflexivity.
    - split; [cbn; constructor; [|constructor; [|constructor; [intros []|constructor]]]; cbn; intuition discriminate|].
      intros a b H. cbn in H. destruct H as [H|[H|[H|[]]]]; injection H as <- <-; split; reflexivity. }
  split; [exact T|]. split; [|split; [reflexivity|split; [reflexivity|split]]].
  - apply C112_pipeline; [exact T|]. constructor; [|constructor; [reflexivity|constructor; [|constructor]]]; cbn [reversible].
    + split.
      * intros a b H. cbn in H. destruct H as [H|[H|[]]]; injection H as <- <-; eexists; cbn; eauto.
      * intros a a' b H H'. cbn in H, H'. intuition congruence.
    + split.
      * intros a b H. cbn in H. destruct H as [H|[H|[H|[]]]]; injection H as <- <-; eexists; cbn; eauto.
      * intros a a' b H H'. cbn in H, H'. intuition congruence.
  - rewrite C112_conversion.
    + intros [K _]. destruct (K 97%N 98%N) as (b & [Q|[]]); [left; reflexivity|]. discriminate Q.
    + split; [repeat constructor; intros []|]. intros a b [Q|[]]. injection Q as <- <-. auto.
  - apply C112_short_key; [apply le_n|repeat constructor|repeat constructor|]. exists 1, (lit "x"), (lit "y"). auto.
Qed.
