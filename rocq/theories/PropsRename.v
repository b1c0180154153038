(** C99: renaming the characters of a text. *)
From Verif Require Import Base StrOps Converter Eliminator Reducer Dotted Ligature TrimMod Neologdn ModifierKind ChanomaModel Spec WidthSpec RenameSpec
  BaseFacts ConverterFacts SimpleFacts TableFacts CharsetFacts NeoFacts NeoProps ConverterProps SimpleProps PropsConverter PropsNeo PropsNeoMore
  PropsPipeline PropsLig CommProps PropsRepeat PropsWidth NeoMore.

Lemma only_iff (Q : char -> Prop) g x y : only Q g x -> Q y -> (g y = x <-> y = x).
Proof. intros [H1 H2] Hy. split; [apply H2, Hy|intros ->; exact H1]. Qed.

(** ** Ligatures *)
Definition kept (g : char -> char) (k : str) (y : char) : Prop := forall x, In x k -> (g y = x <-> y = x).
Lemma map_starts g p : forall s, Forall (kept g p) s -> starts_with p (map g s) = starts_with p s.
Proof.
  induction p as [|x p IH]; intros s H; [destruct s; reflexivity|]. destruct H as [|y s H Hs]; [reflexivity|]. cbn [map starts_with]. f_equal.
  - specialize (H x (or_introl eq_refl)). destruct (N.eqb_spec x y) as [E|D]; [apply N.eqb_eq; symmetry; apply H; symmetry; exact E|].
    apply N.eqb_neq. intros E. apply D. symmetry. apply H. symmetry. exact E.
  - apply IH. eapply Forall_impl; [|exact Hs]. intros z Hz w Hw. apply Hz. right. exact Hw.
Qed.
Lemma map_fixed (g : char -> char) (v : str) : (forall x, In x v -> g x = x) -> map g v = v.
Proof. induction v as [|x v IH]; intros H; [reflexivity|]. cbn. rewrite H, IH; [reflexivity| |left; reflexivity]. intros y Hy. apply H. right. exact Hy. Qed.
Lemma map_scan g p v : map g v = v -> forall s k, Forall (kept g p) s -> replace_scan p v k (map g s) = map g (replace_scan p v k s).
Proof.
  intros Hv. induction s as [|c s IH]; intros k H; [reflexivity|]. inversion H as [|? ? Hc Hs]; subst. cbn [map replace_scan]. destruct k as [|k]; [|apply IH, Hs].
  change (g c :: map g s) with (map g (c :: s)). rewrite map_starts by exact H. destruct (starts_with p (c :: s)).
  - rewrite map_app, Hv, IH by exact Hs. reflexivity.
  - cbn [map]. rewrite IH by exact Hs. reflexivity.
Qed.
Lemma map_empty g v s : map g v = v -> replace_empty v (map g s) = map g (replace_empty v s).
Proof. intros Hv. induction s as [|c s IH]; cbn [map replace_empty]; [symmetry; exact Hv|]. rewrite map_app, Hv. cbn [map]. rewrite IH. reflexivity. Qed.
Lemma map_replace g k v s : map g v = v -> Forall (kept g k) s -> replace k v (map g s) = map g (replace k v s).
Proof. intros Hv H. unfold replace. destruct k as [|x k]; [apply map_empty, Hv|apply map_scan; assumption]. Qed.
Lemma scan_all (Q : char -> Prop) p v : Forall Q v -> forall s k, Forall Q s -> Forall Q (replace_scan p v k s).
Proof.
  intros Hv. induction s as [|c s IH]; intros k H; [constructor|]. inversion H as [|? ? Hc Hs]; subst. cbn [replace_scan]. destruct k as [|k]; [|apply IH, Hs].
  destruct (starts_with p (c :: s)); [apply Forall_app; split; [exact Hv|apply IH, Hs]|constructor; [exact Hc|apply IH, Hs]].
Qed.
Lemma replace_all (Q : char -> Prop) k v s : Forall Q v -> Forall Q s -> Forall Q (replace k v s).
Proof.
  intros Hv Hs. unfold replace. destruct k as [|x k]; [|apply scan_all; assumption].
  induction Hs as [|c s Hc Hs IH]; cbn [replace_empty]; [exact Hv|]. apply Forall_app. split; [exact Hv|]. constructor; assumption.
Qed.
Lemma map_lig (Q : char -> Prop) g o (l : ligature) : (forall (k v : str), In (k, v) l -> (forall x, In x k -> only Q g x) /\ (forall x, In x v -> g x = x) /\ Forall Q v) ->
  forall s, Forall Q s -> lig_modify o l (map g s) = map g (lig_modify o l s).
Proof.
  intros H. unfold lig_modify.
  assert (P : forall k v : str, In (k, v) (hash_iter o l) -> (forall x, In x k -> only Q g x) /\ (forall x, In x v -> g x = x) /\ Forall Q v).
  { intros k v I. apply H. apply (Permutation_in (k, v) (Permutation_sym (hash_iter_perm o l))). exact I. }
  clear H. unfold ligature in *. induction (hash_iter o l) as [|[k v] m IH]; intros s Hs; [reflexivity|]. cbn [fold_left fst snd].
  destruct (P k v (or_introl eq_refl)) as (P1 & P2 & P3). rewrite map_replace.
  - apply IH; [intros k' v' I; apply P; right; exact I|]. apply replace_all; assumption.
  - apply map_fixed, P2.
  - eapply Forall_impl; [|exact Hs]. intros y Hy x Hx. apply (only_iff Q); [apply P1, Hx|exact Hy].
Qed.

(** ** Neologdn *)
Lemma alnum_bool x y : (alnum x <-> alnum y) -> is_ascii_alphanumeric x = is_ascii_alphanumeric y.
Proof. rewrite <- !is_alnum_spec. destruct (is_ascii_alphanumeric x), (is_ascii_alphanumeric y); intuition congruence. Qed.
Lemma conv_settled c : settled (conv1 (neo_conv NEO) c).
Proof.
  unfold conv1. destruct (conv_get (neo_conv NEO) c) as [t|] eqn:E; intros u R.
  - apply NEO_get in E. exact (neologdn_rel_final _ _ _ E R).
  - apply NEO_get in R. congruence.
Qed.
Lemma conv_of_settled c : settled c -> conv1 (neo_conv NEO) c = c.
Proof. intros H. unfold conv1. destruct (conv_get (neo_conv NEO) c) as [t|] eqn:E; [|reflexivity]. apply NEO_get in E. destruct (H t E). Qed.
Lemma conv_of_rel c t : neologdn_rel c t -> conv1 (neo_conv NEO) c = t.
Proof. intros H. unfold conv1. apply NEO_get in H. rewrite H. reflexivity. Qed.
Lemma red_all (Q : char -> Prop) k s : Forall Q s -> forall b, Forall Q (red_rec k b s).
Proof. induction 1 as [|c s H _ IH]; intros b; cbn [red_rec]; [constructor|]. destruct (N.eqb k c); [destruct b; [apply IH|]|]; constructor; auto. Qed.
Lemma dot_all (Q : char -> Prop) s : Q SPACE -> Forall Q s -> forall p sp, Forall Q (dot_rec p sp s).
Proof.
  intros HS. induction 1 as [|c s H _ IH]; intros p sp; cbn [dot_rec]; [constructor|]. destruct (N.eqb c SPACE); [apply IH|].
  apply Forall_app. split; [destruct sp; [destruct (is_ascii_alphanumeric c)|]; repeat constructor; exact HS|constructor; [exact H|apply IH]].
Qed.
Lemma filter_all (Q : char -> Prop) f s : Forall Q s -> Forall Q (filter f s).
Proof. induction 1 as [|c s H _ IH]; cbn [filter]; [constructor|]. destruct (f c); [constructor|]; assumption. Qed.
Lemma composed_settled a m t : composes a m t -> settled t.
Proof.
  intros C u R. assert (I : In ([a; m], [t]) neologdn_lig) by (apply lig_rel; exists a, m, t; repeat split; exact C).
  destruct (lig_entry _ _ I) as (a' & m' & t' & _ & E & F). injection E as <-. apply NEO_rel in R. exact (ef_t_conv _ _ _ F u R).
Qed.
Lemma space_settled : settled space.
Proof. intros t R. apply NEO_get in R. vm_compute in R. discriminate. Qed.
Lemma existsb_In_eqb c l : existsb (N.eqb c) l = true <-> In c l.
Proof. rewrite existsb_exists. split; [intros (x & I & E); apply N.eqb_eq in E; subst; exact I|intros I; exists c; split; [exact I|apply N.eqb_refl]]. Qed.
Lemma neo_renamed g n : unnoticed g (MNeo n) -> forall s, neo_text (map g s) = map g (neo_text s).
Proof.
  intros H s. inversion H as [| | | | | |n' H1 H2 H3 H4 H5 H6 H7]; subst.
  assert (C : neo_conv_text (map g s) = map g (neo_conv_text s)).
  { unfold neo_conv_text. rewrite !map_map. apply map_ext. intros c. unfold conv1 at 2. destruct (conv_get (neo_conv NEO) c) as [t|] eqn:E.
    - apply NEO_get in E. destruct (H1 c t E) as [R|[-> R]]; [apply conv_of_rel, R|]. apply conv_of_settled. exact R.
    - apply conv_of_settled, H2. intros t R. apply NEO_get in R. congruence. }
  assert (S : Forall settled (neo_conv_text s)).
  { unfold neo_conv_text. apply Forall_forall. intros x I. apply in_map_iff in I as (c & <- & _). apply conv_settled. }
  unfold neo_text, neo_tilde, neo_pre. rewrite C. rewrite !tilde_filter, !dot_modify_rec, !red_modify_rec.
  rewrite map_red; [|eapply Forall_impl; [|exact S]; intros y Hy; apply (only_iff settled); assumption|exact (proj1 H3)].
  pose proof (red_all settled CHOONPU _ S false) as S1. set (r := red_rec CHOONPU false (neo_conv_text s)) in *. clearbody r.
  rewrite (map_dot g r) with (p := SPACE); [| |exact (proj1 H4)|reflexivity].
  2:{ eapply Forall_impl; [|exact S1]. intros y Hy. split; [apply (only_iff settled); assumption|apply alnum_bool, H5, Hy]. }
  pose proof (dot_all settled r space_settled S1 SPACE false) as S2. set (d := dot_rec SPACE false r) in *. clearbody d.
  rewrite map_filter.
  2:{ eapply Forall_impl; [|exact S2]. intros y Hy. cbn beta. unfold not_tilde. f_equal. specialize (H6 y Hy).
      rewrite <- !existsb_In_eqb in H6. destruct (existsb (N.eqb (g y)) tilde_variants), (existsb (N.eqb y) tilde_variants); intuition congruence. }
  apply (map_lig settled); [|apply filter_all, S2]. intros k v I. apply lig_rel in I as (a & m & t & -> & -> & K). destruct (H7 a m t K) as (K1 & K2 & K3).
  split; [intros x [<-|[<-|[]]]; assumption|]. split; [intros x [<-|[]]; exact K3|]. constructor; [exact (composed_settled _ _ _ K)|constructor].
Qed.

(** ** C99 *)
Lemma conv_unnoticed g cc : unnoticed g (MConv cc) -> forall c, conv1 cc (g c) = g (conv1 cc c).
Proof.
  intros H c. inversion H as [cc' H'| | | | | |]; subst. specialize (H' c (conv1 cc c)). rewrite !conv_modify_eq in H'. cbn [map] in H'. specialize (H' eq_refl).
  apply Ok_inj in H'. injection H' as H'. exact H'.
Qed.
Lemma Forall_any (P : char -> Prop) s : (forall c, P c) -> Forall P s.
Proof. intros H. apply Forall_forall. intros c _. apply H. Qed.
Lemma modify_renamed g m : constructible m -> unnoticed g m -> forall o s out, modify o m s = Ok out -> modify o m (map g s) = Ok (map g out).
Proof.
  intros C U o s out E. destruct m as [cc|el|k| |l| |n]; cbn [modify] in E |- *.
  - rewrite conv_modify_eq in E |- *. apply Ok_inj in E. subst out. f_equal. rewrite !map_map. apply map_ext, conv_unnoticed, U.
  - apply Ok_inj in E. subst out. f_equal. rewrite !elim_modify_filter. apply map_filter, Forall_any. intros c. f_equal.
    inversion U as [|l H| | | | |]; subst. specialize (H c). rewrite <- !(mem_In N.eqb N.eqb_eq) in H. destruct (mem N.eqb (g c) el), (mem N.eqb c el); intuition congruence.
  - apply Ok_inj in E. subst out. f_equal. rewrite !red_modify_rec. inversion U as [| |c H| | | |]; subst. apply map_red; [|exact (proj1 H)]. apply Forall_any. intros c. apply (only_iff any); [exact H|exact I].
  - apply Ok_inj in E. subst out. f_equal. rewrite !dot_modify_rec. inversion U as [| | |H H'| | |]; subst. apply map_dot; [|exact (proj1 H)|reflexivity]. apply Forall_any.
    intros c. split; [apply (only_iff any); [exact H|exact I]|apply alnum_bool, H'].
  - apply Ok_inj in E. subst out. f_equal. inversion U as [| | | | |l' H|]; subst. apply (map_lig any); [|apply Forall_any; exact (fun _ => I)].
    intros k v K. destruct (H k v K) as [H1 H2]. split; [exact H1|]. split; [exact H2|]. apply Forall_any. exact (fun _ => I).
  - apply Ok_inj in E. subst out. f_equal. inversion U as [| | | |H| |]; subst. apply map_trim; [|exact (proj1 H)]. apply Forall_any. intros c. apply (only_iff any); [exact H|exact I].
  - destruct (C n eq_refl) as (o' & Hn). apply neo_new_inv in Hn. subst n. rewrite neo_modify_eq in E |- *. apply Ok_inj in E. subst out. f_equal. exact (neo_renamed g NEO U s).
Qed.
Lemma fold_renamed g c : Forall constructible c -> Forall (unnoticed g) c -> forall o i s out,
  normalize_fold o i c s = Ok out -> normalize_fold o i c (map g s) = Ok (map g out).
Proof.
  intros C U. induction c as [|m c IH]; intros o i s out E; cbn [normalize_fold] in E |- *; [apply Ok_inj in E; subst; reflexivity|].
  inversion C as [|? ? C1 C2]; inversion U as [|? ? U1 U2]; subst. destruct (modify_total (sub o i) m s C1) as (mid & ps & M & _).
  rewrite M in E. rewrite (modify_renamed g m C1 U1 _ _ _ M). cbn [bind] in E |- *. apply IH; assumption.
Qed.

(** If no modifier notices the renaming, the result of the renamed text is the renamed result. *)
Theorem C99_renaming : forall c g, Forall constructible c -> Forall (unnoticed g) c -> forall dbg o s out,
  normalize dbg o c s = Ok out -> normalize dbg o c (map g s) = Ok (map g out).
Proof.
  intros c g C U dbg o s out E. destruct (C32_lemma o c s C) as (r & R1 & R2). destruct (C32_lemma o c (map g s) C) as (r' & R1' & R2').
  assert (Q : normalize false o c (map g s) = Ok (map g r)) by exact (fold_renamed g c C U o 0 s r R1).
  rewrite Q in R1'. apply Ok_inj in R1'. subst r'. destruct dbg.
  - rewrite R2 in E. rewrite R2'. destruct c; [discriminate E|]. apply Ok_inj in E. subst. reflexivity.
  - rewrite R1 in E. apply Ok_inj in E. subst. exact Q.
Qed.
Print Assumptions C99_renaming.

(** For the five simplest modifiers the conditions are the exact ones. *)
Definition simple (m : modifier) : Prop :=
  match m with MConv _ | MElim _ | MRed _ | MDot | MTrim => True | MLig _ | MNeo _ => False end.
Theorem C99_exact : forall m g, simple m ->
  (unnoticed g m <-> forall dbg o s out, normalize dbg o [m] s = Ok out -> normalize dbg o [m] (map g s) = Ok (map g out)).
Proof.
  intros m g S. assert (C : Forall constructible [m]) by (constructor; [|constructor]; intros n ->; destruct S).
  split; [intros U; apply C99_renaming; [exact C|constructor; [exact U|constructor]]|]. intros H. specialize (H false no_order).
  assert (K : forall f, (forall s, normalize false no_order [m] s = Ok (f s)) -> forall s, f (map g s) = map g (f s)).
  { intros f F s. specialize (H s (f s) (F s)). rewrite F in H. apply Ok_inj in H. exact H. }
  clear H. destruct m as [cc|el|k| |l| |n]; try destruct S.
  - specialize (K (map (conv1 cc)) (normalize_conv false no_order cc)). constructor. intros c d E. rewrite conv_modify_eq in E |- *. apply Ok_inj in E. injection E as <-.
    specialize (K [c]). cbn [map] in K |- *. injection K as ->. reflexivity.
  - specialize (K (elim_modify el) (normalize_elim false no_order el)). constructor. intros c. specialize (K [c]). rewrite <- !(mem_In N.eqb N.eqb_eq).
    cbn [map elim_modify] in K. destruct (mem N.eqb (g c) el), (mem N.eqb c el); try discriminate K; tauto.
  - specialize (K (red_modify k) (normalize_red false no_order k)). constructor.
    assert (G : forall y, g y = k -> y = k).
    { intros y E. specialize (K [y; y]). rewrite !red_modify_rec in K. cbn [map red_rec] in K. rewrite E, N.eqb_refl in K.
      destruct (N.eqb_spec k y) as [->|D]; [reflexivity|]. discriminate K. }
    split; [|intros y _; apply G]. specialize (K [k; k]). rewrite !red_modify_rec in K. cbn [map red_rec] in K. rewrite N.eqb_refl in K.
    destruct (N.eqb_spec k (g k)) as [E|D]; [symmetry; exact E|discriminate K].
  - specialize (K dot_modify (normalize_dot false no_order)).
    assert (G : forall y, g y = space -> y = space).
    { intros y E. specialize (K [y]). rewrite !dot_modify_rec in K. cbn [map dot_rec] in K. rewrite E in K. cbn in K. destruct (N.eqb_spec y SPACE) as [E1|D]; [exact E1|discriminate K]. }
    assert (G' : g space = space).
    { specialize (K [space]). rewrite !dot_modify_rec in K. cbn [map dot_rec] in K. destruct (N.eqb_spec (g space) SPACE) as [E|D]; [exact E|discriminate K]. }
    constructor; [split; [exact G'|intros y _; apply G]|]. intros c. rewrite <- !is_alnum_spec.
    specialize (K [c; space; c]). rewrite !dot_modify_rec in K. cbn [map] in K. rewrite G' in K.
    destruct (N.eqb_spec c space) as [->|D].
    { rewrite G'. tauto. }
    assert (D' : g c <> space) by (intros E; apply D, G, E). cbn [dot_rec] in K.
    change space with SPACE in D, D', K. rewrite (proj2 (N.eqb_neq _ _) D), (proj2 (N.eqb_neq _ _) D') in K. rewrite !N.eqb_refl in K. cbn [app map] in K.
    destruct (is_ascii_alphanumeric (g c)), (is_ascii_alphanumeric c); try tauto; cbn in K; discriminate K.
  - specialize (K trim_modify (normalize_trim false no_order)).
    assert (T : forall y, trim_modify [y] = if N.eqb y space then [] else [y]).
    { intros y. unfold trim_modify, trim_matches, trim_end_matches. cbn [trim_start_matches]. change SPACE with space. destruct (N.eqb y space) eqn:E; [reflexivity|]. cbn. change SPACE with space. unfold space in *. rewrite E. reflexivity. }
    constructor. split.
    + specialize (K [space]). cbn [map] in K. rewrite !T in K. rewrite N.eqb_refl in K. destruct (N.eqb_spec (g space) space) as [E|D]; [exact E|discriminate K].
    + intros y _ E. specialize (K [y]). cbn [map] in K. rewrite !T, E, N.eqb_refl in K. destruct (N.eqb_spec y space) as [E1|D]; [exact E1|discriminate K].
Qed.
Print Assumptions C99_exact.
(** For ligatures they are not: nobody notices an entry that replaces a text by itself. *)
Theorem C99_ligature_exact_refuted : exists l g, ~ unnoticed g (MLig l) /\
  forall o s out, normalize false o [MLig l] s = Ok out -> normalize false o [MLig l] (map g s) = Ok (map g out).
Proof.
  exists [([0x61]%N, [0x61]%N)], (fun _ => 0x62%N). split.
  - intros U. inversion U as [| | | | |l H|]; subst. destruct (H _ _ (or_introl eq_refl)) as [_ H']. specialize (H' _ (or_introl eq_refl)). discriminate H'.
  - assert (F : forall o s, normalize false o [MLig [([0x61]%N, [0x61]%N)]] s = Ok s).
    { intros o s. rewrite normalize_lig. f_equal. unfold lig_modify.
      rewrite (Permutation_length_1_inv (hash_iter_perm (sub o 0) _)).
      cbn [fold_left fst snd]. unfold replace. induction s as [|c s IH]; [reflexivity|]. cbn [replace_scan length Nat.sub]. rewrite IH.
      cbn [starts_with]. destruct (N.eqb_spec 0x61%N c) as [<-|D]; reflexivity. }
    intros o s out E. rewrite F in E |- *. apply Ok_inj in E. subst. reflexivity.
Qed.
Print Assumptions C99_ligature_exact_refuted.

(** ** Two renamings *)
Definition keyb (c : char) : bool := existsb (fun p => N.eqb (fst p) c) neologdn_pairs.
Lemma keyb_settled c : keyb c = false <-> settled c.
Proof.
  unfold keyb, settled. split.
  - intros H t R. apply neologdn_pairs_rel in R. assert (E : existsb (fun p => N.eqb (fst p) c) neologdn_pairs = true) by (apply existsb_exists; exists (c, t); split; [exact R|apply N.eqb_refl]).
    rewrite E in H. discriminate.
  - intros H. destruct (existsb (fun p => N.eqb (fst p) c) neologdn_pairs) eqn:E; [|reflexivity]. apply existsb_exists in E as ([x t] & I & E). cbn [fst] in E. apply N.eqb_eq in E. subst x.
    apply neologdn_pairs_rel in I. destruct (H t I).
Qed.
(** The characters of the compositions. *)
Definition kana : str := flat_map (fun p => fst p ++ snd p) composes_pairs.
Lemma kana_In a m t : composes a m t -> In a kana /\ In m kana /\ In t kana.
Proof.
  intros C. assert (I : In ([a; m], [t]) composes_pairs) by (apply composes_pairs_rel; exists a, m, t; repeat split; exact C).
  unfold kana. repeat split; apply in_flat_map; exists ([a; m], [t]); (split; [exact I|]); cbn; tauto.
Qed.
Definition roles : str := prolonged_mark :: space :: kana.
Lemma mark_role : In prolonged_mark roles. Proof. apply in_eq. Qed.
Lemma space_role : In space roles. Proof. apply in_cons, in_eq. Qed.
Lemma kana_role x : In x kana -> In x roles. Proof. intros J. apply in_cons, in_cons, J. Qed.
Lemma narrowed_keys : forallb (fun p => N.eqb (narrowed (fst p)) (narrowed (snd p)) && negb (keyb (narrowed (fst p))) ||
  (N.eqb (narrowed (fst p)) (fst p) && N.eqb (narrowed (snd p)) (snd p))) neologdn_pairs = true.
Proof. vm_compute. reflexivity. Qed.
Lemma narrowed_rel c t : neologdn_rel c t -> neologdn_rel (narrowed c) (narrowed t) \/ (narrowed c = narrowed t /\ settled (narrowed c)).
Proof.
  intros R. pose proof R as J. apply neologdn_pairs_rel in J. apply (proj1 (forallb_forall _ _) narrowed_keys) in J. cbn [fst snd] in J.
  rewrite orb_true_iff, !andb_true_iff, !N.eqb_eq, negb_true_iff in J. destruct J as [[-> K]|[-> ->]]; [right|left; exact R]. split; [reflexivity|apply keyb_settled, K].
Qed.
Definition plain (p : char * char) : bool :=
  negb (keyb (snd p)) && (keyb (fst p) || (negb (existsb (N.eqb (snd p)) roles) && negb (is_ascii_alphanumeric (fst p)) &&
    negb (is_ascii_alphanumeric (snd p)) && Bool.eqb (existsb (N.eqb (fst p)) tilde_variants) (existsb (N.eqb (snd p)) tilde_variants))).
Lemma width_plain : forallb plain width_pairs = true.
Proof. vm_compute. reflexivity. Qed.
Lemma plain_inv c t : plain (c, t) = true -> settled t /\ (settled c -> ~ In t roles /\ ~ alnum c /\ ~ alnum t /\ (In t tilde_variants <-> In c tilde_variants)).
Proof.
  unfold plain. cbn [fst snd]. intros B. apply andb_true_iff in B as [B1 B2]. split; [apply keyb_settled, negb_true_iff, B1|]. intros Hc. apply keyb_settled in Hc.
  rewrite Hc in B2. cbn [orb] in B2. rewrite !andb_true_iff, !negb_true_iff in B2. destruct B2 as (((B4 & B5) & B6) & B7). apply eqb_prop in B7.
  rewrite <- !existsb_In_eqb, <- !is_alnum_spec, B4, B5, B6, B7. repeat split; try discriminate; tauto.
Qed.
Lemma width_inv c t : In (c, t) width_pairs -> settled t /\ (settled c -> ~ In t roles /\ ~ alnum c /\ ~ alnum t /\ (In t tilde_variants <-> In c tilde_variants)).
Proof. intros H. apply plain_inv. exact (proj1 (forallb_forall _ _) width_plain _ H). Qed.
Lemma narrowed_settled c : settled c -> settled (narrowed c).
Proof. intros Hc. destruct (narrowed_cases c) as [W|[-> _]]; [|exact Hc]. exact (proj1 (width_inv _ _ W)). Qed.
Lemma narrowed_plain c : settled c -> narrowed c = c \/ (~ In (narrowed c) roles /\ ~ alnum c /\ ~ alnum (narrowed c) /\ (In (narrowed c) tilde_variants <-> In c tilde_variants)).
Proof. intros Hc. destruct (narrowed_cases c) as [W|[W _]]; [right|left; exact W]. exact (proj2 (width_inv _ _ W) Hc). Qed.
Lemma narrowed_roles : forallb (fun x => N.eqb (narrowed x) x) roles = true.
Proof. vm_compute. reflexivity. Qed.
Lemma narrowed_only x : In x roles -> only settled narrowed x.
Proof.
  intros J. split; [apply N.eqb_eq; exact (proj1 (forallb_forall _ _) narrowed_roles _ J)|]. intros y Hy E.
  destruct (narrowed_plain y Hy) as [E'|(R & _)]; [congruence|]. rewrite E in R. contradiction.
Qed.
Lemma narrowed_unnoticed n : unnoticed narrowed (MNeo n).
Proof.
  constructor.
  - exact narrowed_rel.
  - exact narrowed_settled.
  - apply narrowed_only, mark_role.
  - apply narrowed_only, space_role.
  - intros c Hc. destruct (narrowed_plain c Hc) as [->|(_ & A1 & A2 & _)]; tauto.
  - intros c Hc. destruct (narrowed_plain c Hc) as [->|(_ & _ & _ & T)]; tauto.
  - intros a m t C. apply kana_In in C as (Ca & Cm & Ct). split; [apply narrowed_only, kana_role, Ca|]. split; [apply narrowed_only, kana_role, Cm|].
    exact (proj1 (narrowed_only t (kana_role t Ct))).
Qed.
(** Width variants may be replaced before neologdn or after it. *)
Theorem C98_neologdn_narrowing_commutes : forall o ch, chanoma_neologdn o = Ok ch -> forall dbg o' s out,
  normalize dbg o' ch s = Ok out -> normalize dbg o' ch (map narrowed s) = Ok (map narrowed out).
Proof.
  intros o ch H. apply chanoma_neo_inv in H. subst ch. apply C99_renaming.
  - constructor; [|constructor]. intros n E. injection E as <-. exists no_order. apply neologdn_new_eq.
  - constructor; [apply narrowed_unnoticed|constructor].
Qed.
Print Assumptions C98_neologdn_narrowing_commutes.

Lemma lower_cases c : (lower c = c /\ ~ (0x41 <= c <= 0x5A)%N /\ ~ (0xFF21 <= c <= 0xFF3A)%N) \/
  (((0x41 <= c <= 0x5A)%N \/ (0xFF21 <= c <= 0xFF3A)%N) /\ lower c = (c + 0x20)%N).
Proof.
  unfold lower, lower_ascii. destruct (N.leb_spec 0xFF21 c), (N.leb_spec c 0xFF3A), (N.leb_spec 0x41 c), (N.leb_spec c 0x5A); cbn [andb]; lia.
Qed.
Lemma lower_other x : ~ (0x61 <= x <= 0x7A)%N -> ~ (0xFF41 <= x <= 0xFF5A)%N -> lower x = x -> forall y, lower y = x -> y = x.
Proof. intros H1 H2 H y E. destruct (lower_cases y) as [(E' & _)|(R & E')]; rewrite E' in E; [exact E|]. lia. Qed.
Lemma full_key c : (0xFF21 <= c <= 0xFF3A)%N -> neologdn_rel c (c - 0xFEE0)%N.
Proof. intros H. apply nr_preset; [lia|]. apply pr_fullwidth. repeat split; lia. Qed.
Lemma lower_pairs : forallb (fun p => pair_mem (lower (fst p), lower (snd p)) neologdn_pairs) neologdn_pairs = true.
Proof. vm_compute. reflexivity. Qed.
Lemma lower_rel c t : neologdn_rel c t -> neologdn_rel (lower c) (lower t).
Proof.
  intros R. apply neologdn_pairs_rel in R. apply (proj1 (forallb_forall _ _) lower_pairs) in R. cbn [fst snd] in R. apply pair_mem_In in R.
  apply neologdn_pairs_rel in R. exact R.
Qed.
Lemma lower_roles_all : forallb (fun x => N.eqb (lower x) x && negb (N.leb 0x61 x && N.leb x 0x7A) && negb (N.leb 0xFF41 x && N.leb x 0xFF5A)) (roles ++ tilde_variants) = true.
Proof. vm_compute. reflexivity. Qed.
Lemma lower_roles x : In x (roles ++ tilde_variants) -> lower x = x /\ forall y, lower y = x -> y = x.
Proof.
  intros I. apply (proj1 (forallb_forall _ _) lower_roles_all) in I. rewrite !andb_true_iff, !negb_true_iff, N.eqb_eq in I. destruct I as [[E I1] I2]. split; [exact E|].
  apply lower_other; [| |exact E].
  - intros [L1 L2]. apply N.leb_le in L1, L2. rewrite L1, L2 in I1. discriminate.
  - intros [L1 L2]. apply N.leb_le in L1, L2. rewrite L1, L2 in I2. discriminate.
Qed.
Lemma lower_only x : In x roles -> only settled lower x.
Proof. intros I. destruct (lower_roles x) as [O1 O2]; [apply in_or_app; left; exact I|]. split; [exact O1|intros y _; apply O2]. Qed.
Lemma lower_settled c : settled c -> lower c = c \/ (0x41 <= c <= 0x5A)%N /\ lower c = (c + 0x20)%N.
Proof. intros Hc. destruct (lower_cases c) as [(E & _)|([R|R] & E)]; [left; exact E|right; split; assumption|]. destruct (Hc _ (full_key c R)). Qed.
Lemma lower_tilde c : In (lower c) tilde_variants <-> In c tilde_variants.
Proof.
  split; intros I.
  - destruct (lower_roles (lower c)) as [_ E]; [apply in_or_app; right; exact I|]. rewrite (E c eq_refl). exact I.
  - destruct (lower_roles c) as [E _]; [apply in_or_app; right; exact I|]. rewrite E. exact I.
Qed.
Lemma lower_unnoticed n : unnoticed lower (MNeo n).
Proof.
  constructor.
  - intros c t R. left. apply lower_rel, R.
  - intros c Hc. destruct (lower_settled c Hc) as [->|[R ->]]; [exact Hc|]. intros t K. apply (ascii_neo (c + 0x20)%N t); [lia|exact K].
  - apply lower_only, mark_role.
  - apply lower_only, space_role.
  - intros c Hc. destruct (lower_settled c Hc) as [->|[R ->]]; [tauto|]. unfold alnum. lia.
  - intros c _. apply lower_tilde.
  - intros a m t C. apply kana_In in C as (Ca & Cm & Ct). split; [apply lower_only, kana_role, Ca|]. split; [apply lower_only, kana_role, Cm|].
    exact (proj1 (lower_only t (kana_role t Ct))).
Qed.
Lemma lower_preset : unnoticed lower (MConv PRESET).
Proof.
  assert (B1 : forallb (fun p => pair_mem (lower (fst p), lower (snd p)) preset_pairs) preset_pairs = true) by (vm_compute; reflexivity).
  rewrite forallb_forall in B1. constructor. intros c d E. rewrite conv_modify_eq in E |- *. apply Ok_inj in E. injection E as <-. cbn [map]. do 2 f_equal.
  unfold conv1 at 2. destruct (conv_get PRESET c) as [t|] eqn:E.
  - apply PRESET_get, preset_pairs_rel, B1, pair_mem_In, preset_pairs_rel, PRESET_get in E. cbn [fst snd] in E. unfold conv1. rewrite E. reflexivity.
  - unfold conv1. destruct (conv_get PRESET (lower c)) as [t|] eqn:F; [|reflexivity]. exfalso. apply PRESET_get in F.
    destruct (lower_cases c) as [(E' & _)|([R|R] & E')]; rewrite E' in F.
    + apply PRESET_get in F. congruence.
    + apply (ascii_preset (c + 0x20)%N t); [lia|exact F].
    + assert (K : preset_rel c (c - 0xFEE0)%N) by (apply pr_fullwidth; repeat split; lia). apply PRESET_get in K. congruence.
Qed.
(** Lower-casing the letters, full-width ones included, may be done before normalising or after it; ... *)
Theorem C99_letter_case : forall o ch, chanoma_preset o = Ok ch \/ chanoma_neologdn o = Ok ch -> forall dbg o' s out,
  normalize dbg o' ch s = Ok out -> normalize dbg o' ch (map lower s) = Ok (map lower out).
Proof.
  intros o ch [H|H].
  - rewrite chanoma_preset_eq in H. apply Ok_inj in H. subst ch. apply C99_renaming; (constructor; [|constructor]); [intros n E; discriminate E|apply lower_preset].
  - apply chanoma_neo_inv in H. subst ch. apply C99_renaming; (constructor; [|constructor]); [|apply lower_unnoticed].
    intros n E. injection E as <-. exists no_order. apply neologdn_new_eq.
Qed.
Print Assumptions C99_letter_case.
(** ... lower-casing the ASCII letters alone may not. *)
Theorem C99_ascii_case_refuted : exists s, forall o ch, chanoma_preset o = Ok ch \/ chanoma_neologdn o = Ok ch -> forall dbg o' out,
  normalize dbg o' ch s = Ok out -> normalize dbg o' ch (map lower_ascii s) <> Ok (map lower_ascii out).
Proof.
  exists [0xFF21]%N. intros o ch H dbg o' out E. change (map lower_ascii [0xFF21]%N) with [0xFF21]%N. rewrite E.
  assert (Q : Ok [0x41]%N = Ok out).
  { rewrite <- E. symmetry. destruct H as [H|H].
    - apply (preset_ok o ch H). constructor; [|constructor]. left. apply (pr_fullwidth 0xFF21%N). repeat split; discriminate.
    - apply (C27_single_character o ch H dbg o' 0xFF21%N 0x41%N). left. apply (full_key 0xFF21%N). split; discriminate. }
  apply Ok_inj in Q. subst out. clear. discriminate.
Qed.
Print Assumptions C99_ascii_case_refuted.

Definition shift (c : char) : char := if N.eqb c 0x62 then 0x63%N else c.
Example C99_case : Forall (unnoticed shift) [MTrim; MDot; MRed 0x61%N; MElim (lit "xy"); MLig [(lit "ad", lit "e")]; MConv [(0x66, 0x67)%N]] /\
  normalize false no_order [MTrim; MDot; MRed 0x61%N; MElim (lit "xy"); MLig [(lit "ad", lit "e")]; MConv [(0x66, 0x67)%N]] (lit " bxaad f ") = Ok (lit "be g") /\
  normalize false no_order [MTrim; MDot; MRed 0x61%N; MElim (lit "xy"); MLig [(lit "ad", lit "e")]; MConv [(0x66, 0x67)%N]] (lit " cxaad f ") = Ok (lit "ce g") /\
  map shift (lit " bxaad f ") = lit " cxaad f ".
Proof.
  assert (O : forall x, x <> 0x62%N -> x <> 0x63%N -> only any shift x).
  { intros x H1 H2. unfold only, shift. rewrite (proj2 (N.eqb_neq _ _) H1). split; [reflexivity|]. intros y _. destruct (N.eqb_spec y 0x62%N); congruence. }
  split; [|vm_compute; repeat split; reflexivity]. repeat apply Forall_cons; try apply Forall_nil.
  - constructor. apply O; discriminate.
  - constructor; [apply O; discriminate|]. intros c. unfold shift. destruct (N.eqb_spec c 0x62%N) as [->|]; [|tauto]. unfold alnum. lia.
  - constructor. apply O; discriminate.
  - constructor. intros c. unfold shift. destruct (N.eqb_spec c 0x62%N) as [->|]; [|tauto]. cbn. intuition discriminate.
  - constructor. intros k v [E|[]]. injection E as <- <-. split; [intros x [<-|[<-|[]]]; apply O; discriminate|intros x [<-|[]]; reflexivity].
  - constructor. intros c d E. rewrite conv_modify_eq in E |- *. apply Ok_inj in E. injection E as <-. unfold conv1, conv_get, shift. cbn [map].
    destruct (N.eqb_spec c 0x62%N) as [->|D]; [reflexivity|]. cbn. destruct (N.eqb c 0x66); [reflexivity|]. rewrite (proj2 (N.eqb_neq _ _) D). reflexivity.
Qed.
