(** Lemmas behind properties C07-C09, C23-C29. *)
From Verif Require Import Base BaseFacts StrOps Corr CharsetData Position Converter Eliminator Reducer Dotted Ligature
  Neologdn ModifierKind ChanomaModel CharSpec Spec ConverterFacts TableFacts ConverterProps SimpleFacts SimpleProps
  CharsetFacts LigFacts NeoFacts.

Lemma conv1_rel (R : char -> char -> Prop) cc : (forall c t, conv_get cc c = Some t <-> R c t) ->
  forall s, pointwise R s (map (conv1 cc) s).
Proof.
  intros HR s. unfold pointwise. induction s as [|c s IH]; cbn [map]; constructor; [|exact IH].
  unfold conv1. destruct (conv_get cc c) as [t|] eqn:E.
  - left. apply HR, E.
  - right. split; [reflexivity|]. intros t H. apply HR in H. congruence.
Qed.
Lemma conv1_rel_unique (R : char -> char -> Prop) cc : (forall c t, conv_get cc c = Some t <-> R c t) ->
  forall s out, pointwise R s out -> out = map (conv1 cc) s.
Proof.
  intros HR s out H. induction H as [|c d s out H _ IH]; cbn [map]; [reflexivity|].
  rewrite IH. f_equal. unfold conv1. destruct H as [H|[-> H]].
  - apply HR in H. rewrite H. reflexivity.
  - destruct (conv_get cc c) as [t|] eqn:E; [|reflexivity]. apply HR in E. destruct (H t E).
Qed.

(** ** Preset *)
Lemma C07_lemma o ch : chanoma_preset o = Ok ch -> forall dbg o' s,
  exists out, normalize dbg o' ch s = Ok out /\ pointwise preset_rel s out.
Proof.
  rewrite chanoma_preset_eq. intros E dbg o' s. injection E as <-. rewrite normalize_conv.
  eexists. split; [reflexivity|]. apply conv1_rel, PRESET_get.
Qed.
Lemma C07_builds o : exists ch, chanoma_preset o = Ok ch.
Proof. rewrite chanoma_preset_eq. eexists. reflexivity. Qed.

Lemma preset_target_not_key : forallb (fun p => negb (existsb (fun q => N.eqb (snd p) (fst q)) PRESET)) PRESET = true.
Proof. vm_compute. reflexivity. Qed.
Lemma preset_rel_final c t u : preset_rel c t -> ~ preset_rel t u.
Proof.
  rewrite <- !PRESET_rel. intros H H'. pose proof preset_target_not_key as E.
  rewrite forallb_forall in E. specialize (E _ H). apply negb_true_iff in E. cbn [snd] in E.
  assert (existsb (fun q => N.eqb t (fst q)) PRESET = true); [|congruence].
  apply existsb_exists. exists (t, u). split; [exact H'|apply N.eqb_refl].
Qed.
Lemma conv_final (R : char -> char -> Prop) s out : (forall c t u, R c t -> ~ R t u) ->
  pointwise R s out -> forall c t, In c out -> ~ R c t.
Proof.
  intros HR H. induction H as [|x y s out Hxy H IH]; intros c t; [intros []|].
  intros [<-|Hin]; [|apply IH, Hin]. destruct Hxy as [Hxy|[-> Hn]]; [eapply HR, Hxy|apply Hn].
Qed.
Lemma conv_id (R : char -> char -> Prop) s : (forall c t, In c s -> ~ R c t) -> pointwise R s s.
Proof.
  intros H. unfold pointwise. induction s as [|c s IH]; constructor.
  - right. split; [reflexivity|]. intros t. apply H. left; reflexivity.
  - apply IH. intros d t Hd. apply H. right; exact Hd.
Qed.
Lemma C08_lemma o ch : chanoma_preset o = Ok ch -> forall dbg o1 s out,
  normalize dbg o1 ch s = Ok out ->
  (forall c t, In c out -> ~ preset_rel c t) /\ forall dbg' o2, normalize dbg' o2 ch out = Ok out.
Proof.
  rewrite chanoma_preset_eq. intros E dbg o1 s out. injection E as <-. rewrite normalize_conv.
  intros E. injection E as <-.
  assert (F : forall c t, In c (map (conv1 PRESET) s) -> ~ preset_rel c t).
  { apply conv_final with s; [apply preset_rel_final|apply conv1_rel, PRESET_get]. }
  split; [exact F|]. intros dbg' o2. rewrite normalize_conv. f_equal. symmetry.
  apply (conv1_rel_unique _ _ PRESET_get). apply conv_id, F.
Qed.

Lemma preset_halfwidth_none c : (0xFF61 <= c <= 0xFF9F)%N ->
  ((forall t, ~ preset_rel c t) <-> c = 0xFF70%N \/ c = 0xFF9E%N \/ c = 0xFF9F%N).
Proof.
  intros Hr. split.
  - intros H.
    destruct (N.eq_dec c 0xFF70) as [->|H1]; [auto|].
    destruct (N.eq_dec c 0xFF9E) as [->|H2]; [auto|].
    destruct (N.eq_dec c 0xFF9F) as [->|H3]; [auto|]. exfalso.
    assert (Hl : N.to_nat (c - 0xFF61) < length halfwidth_forms).
    { change (length halfwidth_forms) with 61. lia. }
    apply (H (nth (N.to_nat (c - 0xFF61)) halfwidth_forms 0%N)).
    replace c with (0xFF61 + N.of_nat (N.to_nat (c - 0xFF61)))%N at 1 by lia.
    apply pr_halfwidth; [apply nth_error_nth', Hl|lia].
  - intros H t Ht.
    assert (G : forallb (fun p => negb (existsb (N.eqb (fst p)) [0xFF70; 0xFF9E; 0xFF9F]%N)) PRESET = true)
      by (vm_compute; reflexivity).
    apply PRESET_rel in Ht. rewrite forallb_forall in G. specialize (G _ Ht).
    apply negb_true_iff in G. cbn [fst existsb] in G.
    destruct H as [->|[->| ->]]; discriminate G.
Qed.
Lemma C09_lemma o ch : chanoma_preset o = Ok ch -> forall dbg o' c,
  (0xFF61 <= c <= 0xFF9F)%N ->
  (normalize dbg o' ch [c] = Ok [c] <-> c = 0xFF70%N \/ c = 0xFF9E%N \/ c = 0xFF9F%N).
Proof.
  intros Hch dbg o' c Hr. rewrite <- preset_halfwidth_none by exact Hr.
  destruct (C07_lemma o ch Hch dbg o' [c]) as (out & E & H). rewrite E.
  inversion H as [|x y s' out' Hxy Hn E1 E2]; subst. inversion Hn; subst. split.
  - intros Hy. injection Hy as ->. destruct Hxy as [Hxy|[_ Hxy]]; [|exact Hxy].
    intros t Ht. exact (preset_rel_final _ _ _ Hxy Ht).
  - intros Hc. destruct Hxy as [Hxy|[-> _]]; [destruct (Hc _ Hxy)|reflexivity].
Qed.

(** ** Neologdn: result *)
Lemma normalize_neo dbg o s : normalize dbg o [MNeo NEO] s = Ok (neo_text s).
Proof.
  unfold normalize. destruct dbg; cbn [negb].
  - unfold normalize_with_positions. cbn [normalize_records modify_with_positions].
    rewrite neo_positions_eq. reflexivity.
  - cbn [normalize_fold modify]. rewrite neo_modify_eq. reflexivity.
Qed.
Lemma normalize_with_positions_neo o s :
  normalize_with_positions o [MNeo NEO] s = Ok [Record (MNeo NEO) (neo_text s) []].
Proof.
  unfold normalize_with_positions. cbn [normalize_records modify_with_positions].
  rewrite neo_positions_eq. reflexivity.
Qed.
Lemma chanoma_neo_inv o ch : chanoma_neologdn o = Ok ch -> ch = [MNeo NEO].
Proof. rewrite chanoma_neologdn_eq. congruence. Qed.

Lemma rules_composition k v : rules neologdn_lig k v <-> composition k v.
Proof. apply lig_rel. Qed.

Transparent TILDES.
Lemma tilde_filter s : elim_modify (elim_from_chars TILDES) s = filter not_tilde s.
Proof. rewrite elim_from_chars_filter. apply filter_ext. intros c. reflexivity. Qed.
Opaque TILDES.

Lemma lig_comp s out : lig_modify o_id neologdn_lig s = out <-> replaced composition s out.
Proof.
  rewrite (lig_modify_iff o_id _ s out lig_nodup lig_non_interfering).
  split; apply replaced_ext; intros k v; rewrite rules_composition; reflexivity.
Qed.

Lemma neo_text_result s out : neo_text s = out <-> neologdn_result s out.
Proof.
  unfold neologdn_result, neo_text. split.
  - intros H. exists (neo_conv_text s), (red_modify CHOONPU (neo_conv_text s)), (neo_pre s).
    repeat split.
    + apply conv1_rel, NEO_get.
    + apply red_modify_spec. reflexivity.
    + apply dot_modify_spec. reflexivity.
    + rewrite <- tilde_filter. apply lig_comp, H.
  - intros (a & b & c & H1 & H2 & H3 & H4).
    apply (conv1_rel_unique _ _ NEO_get) in H1. apply red_modify_spec in H2. apply dot_modify_spec in H3.
    apply lig_comp in H4. subst a b c. rewrite <- tilde_filter in H4. exact H4.
Qed.

(** ** Characters of the result *)
Lemma collapsed_In c s out : collapsed c s out -> forall x, In x out -> In x s.
Proof.
  induction 1 as [|x s out Hx H IH|n s out Hn Hh H IH]; intros y.
  - intros [].
  - intros [->|Hy]; [left; reflexivity|right; apply IH, Hy].
  - intros [<-|Hy]; [destruct n; [lia|left; reflexivity]|]. apply in_app_iff. right. apply IH, Hy.
Qed.
Lemma undotted_In p s out : undotted p s out -> forall x, In x out -> In x s.
Proof.
  induction 1 as [p|p x s out Hx H IH|p n s out Hn Hh Hp Hq H IH|p n s out Hn Hh Hpq H IH]; intros y.
  - intros [].
  - intros [->|Hy]; [left; reflexivity|right; apply IH, Hy].
  - intros [<-|Hy]; [destruct n; [lia|left; reflexivity]|]. apply in_app_iff. right. apply IH, Hy.
  - intros Hy. apply in_app_iff. right. apply IH, Hy.
Qed.
Lemma replaced_In (R : str -> str -> Prop) s out : replaced R s out -> forall x, In x out ->
  In x s \/ exists k v, R k v /\ In x v.
Proof.
  induction 1 as [|k v s out Hk Hr H IH|y s out Hm H IH]; intros x.
  - intros [].
  - rewrite in_app_iff. intros [Hx|Hx]; [right; exists k, v; auto|].
    destruct (IH x Hx) as [Hs|Hv]; [left; apply in_app_iff; right; exact Hs|right; exact Hv].
  - intros [->|Hx]; [left; left; reflexivity|].
    destruct (IH x Hx) as [Hs|Hv]; [left; right; exact Hs|right; exact Hv].
Qed.

Transparent NEO.
Lemma neo_target_not_key : forallb (fun p => negb (existsb (fun q => N.eqb (snd p) (fst q)) (neo_conv NEO))) (neo_conv NEO) = true.
Proof. vm_compute. reflexivity. Qed.
Opaque NEO.
Lemma neologdn_rel_final c t u : neologdn_rel c t -> ~ neologdn_rel t u.
Proof.
  rewrite <- !NEO_rel. intros H H'. pose proof neo_target_not_key as E.
  rewrite forallb_forall in E. specialize (E _ H). apply negb_true_iff in E. cbn [snd] in E.
  assert (existsb (fun q => N.eqb t (fst q)) (neo_conv NEO) = true); [|congruence].
  apply existsb_exists. exists (t, u). split; [exact H'|apply N.eqb_refl].
Qed.

Lemma composition_facts k v : composition k v -> exists a m t, k = [a; m] /\ v = [t] /\ entry_facts a m t.
Proof. intros H. apply rules_composition in H. apply lig_entry, H. Qed.

Lemma not_tilde_true c : not_tilde c = true <-> ~ In c tilde_variants.
Proof.
  unfold not_tilde. rewrite negb_true_iff. split.
  - intros E H. assert (existsb (N.eqb c) tilde_variants = true); [|congruence].
    apply existsb_exists. exists c. split; [exact H|apply N.eqb_refl].
  - intros H. destruct (existsb (N.eqb c) tilde_variants) eqn:E; [|reflexivity].
    apply existsb_exists in E as (y & Hy & E). apply N.eqb_eq in E. subst. contradiction.
Qed.
Transparent TILDES.
Lemma TILDES_eq : TILDES = tilde_variants. Proof. reflexivity. Qed.
Opaque TILDES.

Lemma neo_shape s : neologdn_shape (neo_text s).
Proof.
  assert (H : neologdn_result s (neo_text s)) by (apply neo_text_result; reflexivity).
  destruct H as (a & b & c & H1 & H2 & H3 & H4).
  assert (Hc : forall x, In x (filter not_tilde c) -> In x a /\ ~ In x tilde_variants).
  { intros x Hx. apply filter_In in Hx as [Hx Hf]. apply not_tilde_true in Hf. split; [|exact Hf].
    eapply collapsed_In; [exact H2|]. eapply undotted_In; eassumption. }
  split; [|split; [|split]].
  - intros x t Hx. destruct (replaced_In _ _ _ H4 x Hx) as [Hs|(k & v & Hr & Hv)].
    + apply (conv_final neologdn_rel s a neologdn_rel_final H1). apply Hc, Hs.
    + destruct (composition_facts _ _ Hr) as (a' & m & t' & -> & -> & F). destruct Hv as [<-|[]].
      rewrite <- NEO_rel. apply (ef_t_conv _ _ _ F).
  - intros x Hx. destruct (replaced_In _ _ _ H4 x Hx) as [Hs|(k & v & Hr & Hv)].
    + apply Hc, Hs.
    + destruct (composition_facts _ _ Hr) as (a' & m & t' & -> & -> & F). destruct Hv as [<-|[]].
      pose proof (ef_t_tilde _ _ _ F) as E. rewrite TILDES_eq in E. apply (mem_false N.eqb N.eqb_eq) in E. exact E.
  - intros a' m t Hcm.
    assert (Hr : rules neologdn_lig [a'; m] [t]).
    { apply rules_composition. exists a', m, t. auto. }
    apply (replaced_no_key neologdn_lig (filter not_tilde c) (neo_text s) lig_non_interfering) with [t]; [|exact Hr].
    revert H4. apply replaced_ext. intros k v. symmetry. apply rules_composition.
  - apply dotted_ok_between, neo_text_ok.
Qed.

(** ** Second pass *)
Lemma occurs_cons x (p s : str) : occurs p s -> occurs p (x :: s).
Proof. intros (i & a & b & -> & E). exists (S i), (x :: a), b. simpl. auto. Qed.
Lemma occurs_app (a p s : str) : occurs p s -> occurs p (a ++ s).
Proof. intros H. induction a as [|x a IH]; [exact H|]. apply occurs_cons, IH. Qed.
Lemma occurs_here (p b : str) : occurs p (p ++ b).
Proof. exists 0, [], b. auto. Qed.
Lemma occurs_cons_inv p x (s : str) : p <> [] -> occurs p (x :: s) -> prefix_of p (x :: s) \/ occurs p s.
Proof.
  intros Hp (i & [|y a] & b & E & L); simpl in E.
  - left. exists b. exact E.
  - right. injection E as -> ->. exists (length a), a, b. auto.
Qed.
Lemma collapsed_hd c s m out : collapsed c s (m :: out) -> m <> c -> exists r, s = m :: r.
Proof. intros H Hm. inversion H; subst; [eexists; reflexivity|contradiction]. Qed.

Lemma collapsed_pair c s out : collapsed c s out -> forall a m, a <> c -> m <> c ->
  occurs [a; m] out -> occurs [a; m] s.
Proof.
  induction 1 as [|x s out Hx H IH|n s out Hn Hh H IH]; intros a m Ha Hm Ho.
  - exact Ho.
  - apply occurs_cons_inv in Ho; [|discriminate]. destruct Ho as [(r & E)|Ho].
    + injection E as -> ->. destruct (collapsed_hd _ _ _ _ H Hm) as (r' & ->).
      apply (occurs_here [a; m] r').
    + apply occurs_cons. apply IH; assumption.
  - apply occurs_cons_inv in Ho; [|discriminate]. destruct Ho as [(r & E)|Ho].
    + injection E as E _. congruence.
    + apply occurs_app. apply IH; assumption.
Qed.
Lemma repeat_dotted c n s : c <> space -> n > 0 -> forall p, dotted_ok p (repeat c n ++ s) -> dotted_ok (Some c) s.
Proof.
  intros Hc. induction n as [|n IH]; intros Hn p H; [lia|]. simpl in H. destruct H as [_ H].
  destruct n as [|n]; [exact H|]. apply (IH ltac:(lia) _ H).
Qed.
Lemma collapsed_hd_alnum c s out : ~ alnum c -> collapsed c s out -> alnum_opt (hd_error s) -> hd_error out = hd_error s.
Proof.
  intros Hc H (d & E & A). destruct H as [|x s out Hx H|n s out Hn Hh H]; [reflexivity|reflexivity|].
  destruct n; [lia|]. simpl in E. injection E as <-. contradiction.
Qed.
Lemma collapsed_dotted c s out : ~ alnum c -> c <> space -> collapsed c s out -> forall p,
  dotted_ok p s -> dotted_ok p out.
Proof.
  intros Hc Hsp. induction 1 as [|x s out Hx H IH|n s out Hn Hh H IH]; intros p Hd.
  - exact I.
  - destruct Hd as [H1 H2]. split; [|apply IH, H2]. intros E. destruct (H1 E) as [A B]. split; [exact A|].
    rewrite (collapsed_hd_alnum _ _ _ Hc H B). exact B.
  - split; [intros E; contradiction|]. apply IH. apply (repeat_dotted c n s Hsp Hn p Hd).
Qed.
Lemma replaced_id (R : str -> str -> Prop) s : (forall k v, R k v -> k <> [] /\ ~ occurs k s) -> replaced R s s.
Proof.
  induction s as [|x s IH]; intros H; [apply rep_nil|]. apply rep_miss.
  - intros k v Hr (r & E). apply (proj2 (H k v Hr)). rewrite E. apply occurs_here.
  - apply IH. intros k v Hr. destruct (H k v Hr) as [Hk Ho]. split; [exact Hk|].
    intros Hs. apply Ho, occurs_cons, Hs.
Qed.
Lemma filter_id {A} (f : A -> bool) l : (forall x, In x l -> f x = true) -> filter f l = l.
Proof.
  induction l as [|x l IH]; simpl; intros H; [reflexivity|].
  rewrite (H x) by (left; reflexivity). rewrite IH; [reflexivity|]. intros y Hy. apply H. right; exact Hy.
Qed.
Lemma long_not_alnum : ~ alnum prolonged_mark.
Proof. intros H. apply is_alnum_spec in H. discriminate. Qed.
Lemma long_not_space : prolonged_mark <> space.
Proof. discriminate. Qed.

Lemma neo_shaped_text s : neologdn_shape s -> neo_text s = red_modify prolonged_mark s.
Proof.
  intros (S1 & S2 & S3 & S4). apply neo_text_result.
  assert (Hc : collapsed prolonged_mark s (red_modify prolonged_mark s)) by (apply red_modify_spec; reflexivity).
  set (z := red_modify prolonged_mark s) in *.
  exists s, z, z. split; [apply conv_id, S1|]. split; [exact Hc|]. split.
  - apply dotted_ok_fix. apply (collapsed_dotted _ _ _ long_not_alnum long_not_space Hc).
    apply dotted_ok_between, S4.
  - rewrite filter_id.
    + apply replaced_id. intros k v Hr. pose proof Hr as (a & m & t & -> & -> & Hcm).
      split; [discriminate|]. intros Ho. apply (S3 a m t Hcm).
      destruct (composition_facts _ _ Hr) as (a' & m' & t' & E & E' & F).
      injection E as <- <-.
      apply (collapsed_pair _ _ _ Hc); [apply (ef_a_long _ _ _ F)|apply (ef_m_long _ _ _ F)|exact Ho].
    + intros x Hx. apply not_tilde_true. apply S2. eapply collapsed_In; eassumption.
Qed.
Lemma no_double_adjacent s : no_double_mark s <-> no_adjacent prolonged_mark s.
Proof.
  unfold no_double_mark, no_adjacent. split.
  - intros H a b E. apply H. exists (length a), a, b. auto.
  - intros H (i & a & b & E & _). exact (H a b E).
Qed.
Lemma red_fix_iff s : red_modify prolonged_mark s = s <-> no_double_mark s.
Proof.
  rewrite no_double_adjacent. split; [|apply no_adjacent_fix].
  intros E. rewrite <- E. apply red_modify_no_adjacent.
Qed.
Lemma neo_fix s : neo_text s = s <-> neologdn_shape s /\ no_double_mark s.
Proof.
  split.
  - intros E. assert (S : neologdn_shape s) by (rewrite <- E; apply neo_shape).
    split; [exact S|]. apply red_fix_iff. rewrite <- neo_shaped_text by exact S. exact E.
  - intros [S H]. rewrite neo_shaped_text by exact S. apply red_fix_iff, H.
Qed.
Lemma neo_twice s : neo_text (neo_text s) = red_modify prolonged_mark (neo_text s).
Proof. apply neo_shaped_text, neo_shape. Qed.
Lemma neo_thrice s : neo_text (neo_text (neo_text s)) = neo_text (neo_text s).
Proof.
  rewrite (neo_twice (neo_text s)). rewrite (neo_twice s). apply red_fix_iff, no_double_adjacent.
  apply red_modify_no_adjacent.
Qed.

Lemma undotted_nospace p s out : undotted p s out -> ~ In space s -> out = s.
Proof.
  induction 1 as [p|p x s out Hx H IH|p n s out Hn Hh Hp Hq H IH|p n s out Hn Hh Hpq H IH]; intros Hs.
  - reflexivity.
  - f_equal. apply IH. intros Hi. apply Hs. right; exact Hi.
  - exfalso. apply Hs. destruct n; [lia|left; reflexivity].
  - exfalso. apply Hs. destruct n; [lia|left; reflexivity].
Qed.
(** Characters that become a space or a tilde. *)
Lemma neo_gap_source c t : neologdn_rel c t -> t = space \/ In t tilde_variants ->
  c = 0x3000%N \/ c = 0x301C%N.
Proof.
  rewrite <- NEO_rel. intros H Ht.
  assert (G : forallb (fun p => negb (N.eqb (snd p) space || existsb (N.eqb (snd p)) tilde_variants)
                        || N.eqb (fst p) 0x3000 || N.eqb (fst p) 0x301C) (neo_conv NEO) = true)
    by (vm_compute; reflexivity).
  rewrite forallb_forall in G. specialize (G _ H). cbn [fst snd] in G.
  apply orb_true_iff in G as [G|G]; [apply orb_true_iff in G as [G|G]|].
  - apply negb_true_iff, orb_false_iff in G as [G1 G2]. apply N.eqb_neq in G1.
    destruct Ht as [Ht|Ht]; [contradiction|].
    assert (existsb (N.eqb t) tilde_variants = true); [|congruence].
    apply existsb_exists. exists t. split; [exact Ht|apply N.eqb_refl].
  - left. apply N.eqb_eq, G.
  - right. apply N.eqb_eq, G.
Qed.
Lemma pointwise_In (R : char -> char -> Prop) s out : pointwise R s out -> forall y, In y out ->
  exists x, In x s /\ (R x y \/ y = x).
Proof.
  intros H. induction H as [|x y s out Hxy H IH]; intros z; [intros []|].
  intros [<-|Hz].
  - exists x. split; [left; reflexivity|]. destruct Hxy as [Hxy|[Hxy _]]; auto.
  - destruct (IH z Hz) as (w & Hw & E). exists w. split; [right; exact Hw|exact E].
Qed.
Lemma neo_no_gap s : (forall c, In c s -> c <> space /\ c <> 0x3000%N /\ ~ In c tilde_variants) ->
  no_double_mark (neo_text s).
Proof.
  intros Hs. assert (H : neologdn_result s (neo_text s)) by (apply neo_text_result; reflexivity).
  destruct H as (a & b & c & H1 & H2 & H3 & H4).
  assert (Ha : forall y, In y a -> y <> space /\ ~ In y tilde_variants).
  { intros y Hy. destruct (pointwise_In _ _ _ H1 y Hy) as (x & Hx & [Hr| ->]).
    - assert (G : ~ (y = space \/ In y tilde_variants)); [|tauto].
      intros G. destruct (neo_gap_source _ _ Hr G) as [->| ->].
      + destruct (Hs _ Hx) as (_ & A & _). apply A. reflexivity.
      + destruct (Hs _ Hx) as (_ & _ & A). apply A. cbn. auto.
    - destruct (Hs _ Hx) as (A & _ & B). auto. }
  assert (Hb : forall y, In y b -> y <> space /\ ~ In y tilde_variants).
  { intros y Hy. apply Ha. eapply collapsed_In; eassumption. }
  assert (Ec : c = b).
  { apply (undotted_nospace _ _ _ H3). intros Hi. destruct (Hb _ Hi) as [E _]. apply E. reflexivity. }
  subst c. rewrite filter_id in H4 by (intros x Hx; apply not_tilde_true, Hb, Hx).
  apply no_double_adjacent. intros x y E.
  assert (G : forall s0 t0, replaced composition s0 t0 -> forall x y, t0 = x ++ [prolonged_mark; prolonged_mark] ++ y ->
              occurs [prolonged_mark; prolonged_mark] s0).
  { clear. induction 1 as [|k v s out Hk Hr H IH|z s out Hm H IH]; intros x y E.
    - destruct x; discriminate.
    - destruct (composition_facts _ _ Hr) as (a & m & t & -> & -> & F).
      destruct x as [|w x]; simpl in E.
      + injection E as E _. destruct (ef_t_long _ _ _ F E).
      + injection E as _ E. apply occurs_app. apply (IH x y E).
    - destruct x as [|w x]; simpl in E.
      + injection E as -> E.
        destruct (output_key_part composition [prolonged_mark]) with s out [prolonged_mark] y as (s2 & -> & _).
        * intros k v Hr. destruct (composition_facts _ _ Hr) as (a & m & t & -> & -> & F). split; discriminate.
        * intros k w' u Hr Hu Hp. destruct (composition_facts _ _ Hr) as (a & m & t & -> & -> & F).
          destruct Hu as [<-|[]]. destruct Hp as [Hp|[]]. symmetry in Hp. destruct (ef_t_long _ _ _ F Hp).
        * exact H.
        * intros u Hu; exact Hu.
        * exact E.
        * apply (occurs_here [prolonged_mark; prolonged_mark] s2).
      + injection E as _ E. apply occurs_cons. apply (IH x y E). }
  specialize (G _ _ H4 x y E). apply red_modify_spec in H2. subst b.
  destruct G as (i & p & q & Ep & _). exact (red_modify_no_adjacent _ _ p q Ep).
Qed.

(** ** Single characters and pairs *)
Lemma collapsed_single c x : collapsed c [x] [x].
Proof.
  destruct (N.eq_dec x c) as [->|H].
  - apply (col_run c 1 [] []); [lia|discriminate|apply col_nil].
  - apply col_other; [exact H|apply col_nil].
Qed.
Lemma neo_single c t : (neologdn_rel c t \/ (t = c /\ forall u, ~ neologdn_rel c u)) ->
  neo_text [c] = if N.eqb t space || existsb (N.eqb t) tilde_variants then [] else [t].
Proof.
  intros H. apply neo_text_result.
  destruct (N.eqb_spec t space) as [Hs|Hs]; cbn [orb].
  - exists [t], [t], []. split; [constructor; [exact H|constructor]|]. split; [apply collapsed_single|].
    split; [|apply rep_nil]. subst t. apply (und_drop None 1 [] []); [lia|discriminate| |constructor].
    intros [A _]. exact (alnum_None A).
  - exists [t], [t], [t]. split; [constructor; [exact H|constructor]|]. split; [apply collapsed_single|].
    split; [apply und_char; [exact Hs|constructor]|].
    cbn [filter]. unfold not_tilde. destruct (existsb (N.eqb t) tilde_variants); cbn [negb]; [apply rep_nil|].
    apply rep_miss; [|apply rep_nil]. intros k v (a & m & u & -> & _) (r & E). discriminate.
Qed.
Lemma pair_result a m out :
  (forall t, ~ neologdn_rel a t) -> (forall t, ~ neologdn_rel m t) ->
  a <> space -> m <> space -> ~ In a tilde_variants -> ~ In m tilde_variants ->
  (a <> prolonged_mark \/ m <> prolonged_mark) ->
  replaced composition [a; m] out -> neo_text [a; m] = out.
Proof.
  intros H1 H2 H3 H4 H5 H6 H7 H. apply neo_text_result. exists [a; m], [a; m], [a; m].
  split; [apply conv_id; intros c t [<-|[<-|[]]]; auto|].
  split.
  { destruct (N.eq_dec a prolonged_mark) as [->|Ha].
    - assert (Hm : m <> prolonged_mark) by tauto.
      apply (col_run _ 1 [m] [m]); [lia|cbn; congruence|apply col_other; [exact Hm|apply col_nil]].
    - apply col_other; [exact Ha|apply collapsed_single]. }
  split; [repeat (apply und_char; [assumption|]); constructor|].
  rewrite filter_id; [exact H|]. intros x [<-|[<-|[]]]; apply not_tilde_true; assumption.
Qed.
Transparent NEO.
Lemma composes_plain : forallb (fun p => forallb (fun x => negb (existsb (fun q => N.eqb x (fst q)) (neo_conv NEO))
    && not_tilde x && negb (N.eqb x space)) (fst p)) composes_pairs = true.
Proof. vm_compute. reflexivity. Qed.
Opaque NEO.
Lemma composes_char a m t : composes a m t -> forall x, x = a \/ x = m ->
  (forall u, ~ neologdn_rel x u) /\ x <> space /\ ~ In x tilde_variants.
Proof.
  intros H x Hx. assert (Hin : In ([a; m], [t]) composes_pairs).
  { apply composes_pairs_rel. exists a, m, t. auto. }
  pose proof composes_plain as G. rewrite forallb_forall in G. specialize (G _ Hin). cbn [fst] in G.
  rewrite forallb_forall in G. specialize (G x ltac:(destruct Hx as [->| ->]; cbn; auto)).
  apply andb_true_iff in G as [G G3]. apply andb_true_iff in G as [G1 G2].
  apply negb_true_iff in G1. apply not_tilde_true in G2. apply negb_true_iff, N.eqb_neq in G3.
  split; [|split; assumption]. intros u Hu. apply NEO_rel in Hu.
  assert (existsb (fun q => N.eqb x (fst q)) (neo_conv NEO) = true); [|congruence].
  apply existsb_exists. exists (x, u). split; [exact Hu|apply N.eqb_refl].
Qed.
Lemma neo_pair a m t : composes a m t -> neo_text [a; m] = [t].
Proof.
  intros H. destruct (composes_char _ _ _ H a (or_introl eq_refl)) as (A1 & A2 & A3).
  destruct (composes_char _ _ _ H m (or_intror eq_refl)) as (M1 & M2 & M3).
  assert (Hr : composition [a; m] [t]) by (exists a, m, t; auto).
  destruct (composition_facts _ _ Hr) as (a' & m' & t' & E & E' & F). injection E as <- <-.
  apply pair_result; try assumption; [left; apply (ef_a_long _ _ _ F)|].
  apply (rep_hit composition [a; m] [t] [] []); [discriminate|exact Hr|apply rep_nil].
Qed.
Lemma neo_no_pair a m :
  (forall t, ~ neologdn_rel a t) -> (forall t, ~ neologdn_rel m t) ->
  a <> space -> m <> space -> ~ In a tilde_variants -> ~ In m tilde_variants ->
  (a <> prolonged_mark \/ m <> prolonged_mark) ->
  (forall t, ~ composes a m t) -> neo_text [a; m] = [a; m].
Proof.
  intros H1 H2 H3 H4 H5 H6 H7 H. apply pair_result; try assumption.
  apply rep_miss; [|apply rep_miss; [|apply rep_nil]].
  - intros k v (a' & m' & t' & -> & -> & Hc) (r & E). injection E as <- <- _. exact (H _ Hc).
  - intros k v (a' & m' & t' & -> & -> & Hc) (r & E). discriminate.
Qed.
