(** Lemmas about the presets' character maps and neologdn. *)
From Verif Require Import Base BaseFacts StrOps Corr CharsetData Position Converter Eliminator Reducer Dotted Ligature
  Neologdn ModifierKind ChanomaModel CharSpec Spec ConverterFacts TableFacts ConverterProps SimpleFacts SimpleProps
  CharsetFacts LigFacts.

(** ** Preset map *)
Definition preset_pairs : list (char * char) :=
  map (fun c => (c, c - 0xFEE0)%N)
      (filter (fun c => negb (N.eqb c 0xFF02) && negb (N.eqb c 0xFF07))
              (map (fun i => 0xFF01 + N.of_nat i)%N (seq 0 93))) ++
  map (fun i => (0xFF61 + N.of_nat i, nth i halfwidth_forms 0)%N)
      (filter (fun i => negb (Nat.eqb i 15)) (seq 0 (length halfwidth_forms))) ++
  [(0xFFE5, 0xA5); (0x201D, 0x22); (0x2019, 0x27); (0x301C, 0x7E); (0x3000, 0x20)]%N.

Lemma preset_pairs_rel c t : In (c, t) preset_pairs <-> preset_rel c t.
Proof.
  unfold preset_pairs. rewrite !in_app_iff, !in_map_iff. split.
  - intros [(x & E & Hx)|[(i & E & Hi)|H]].
    + injection E as -> <-. apply filter_In in Hx as [Hx Hf].
      apply in_map_iff in Hx as (i & <- & Hi). apply in_seq in Hi.
      apply andb_true_iff in Hf as [F1 F2].
      apply negb_true_iff, N.eqb_neq in F1. apply negb_true_iff, N.eqb_neq in F2.
      apply pr_fullwidth. repeat split; try assumption; lia.
    + apply pair_equal_spec in E as [<- <-]. apply filter_In in Hi as [Hi Hf]. apply in_seq in Hi.
      apply negb_true_iff, Nat.eqb_neq in Hf. apply pr_halfwidth; [|exact Hf].
      apply nth_error_nth'. lia.
    + cbn [In] in H. intuition (match goal with H : _ = _ |- _ => injection H as <- <- end; constructor).
  - intros H. destruct H as [c (Hr & H1 & H2)|i t E Hi| | | | |].
    + left. exists c. split; [reflexivity|]. apply filter_In. split.
      * apply in_map_iff. exists (N.to_nat (c - 0xFF01)). split; [lia|]. apply in_seq. lia.
      * apply andb_true_iff. split; apply negb_true_iff, N.eqb_neq; assumption.
    + right. left. exists i. split; [f_equal; apply nth_error_nth, E|].
      apply filter_In. split; [|apply negb_true_iff, Nat.eqb_neq, Hi].
      apply in_seq. assert (i < length halfwidth_forms) by (apply nth_error_Some; congruence). lia.
    + right; right; left; reflexivity.
    + right; right; right; left; reflexivity.
    + right; right; right; right; left; reflexivity.
    + right; right; right; right; right; left; reflexivity.
    + right; right; right; right; right; right; left; reflexivity.
Qed.

Definition pair_mem (p : char * char) (l : list (char * char)) : bool :=
  existsb (fun q => N.eqb (fst p) (fst q) && N.eqb (snd p) (snd q)) l.
Lemma pair_mem_In p l : pair_mem p l = true <-> In p l.
Proof.
  unfold pair_mem. rewrite existsb_exists. split.
  - intros ([a b] & Hin & E). destruct p as [c d]. cbn [fst snd] in E.
    apply andb_true_iff in E as [E1 E2]. apply N.eqb_eq in E1. apply N.eqb_eq in E2. subst. exact Hin.
  - intros H. exists p. split; [exact H|]. rewrite !N.eqb_refl. reflexivity.
Qed.
Lemma pairs_same l l' : forallb (fun p => pair_mem p l') l = true -> forallb (fun p => pair_mem p l) l' = true ->
  forall p, In p l <-> In p l'.
Proof.
  rewrite !forallb_forall. intros H H' p. split; intros Hp; apply pair_mem_In; auto.
Qed.

(** Duplicate-free keys, decided. *)
Fixpoint nodupb (l : list char) : bool :=
  match l with [] => true | x :: r => negb (existsb (N.eqb x) r) && nodupb r end.
Lemma nodupb_NoDup l : nodupb l = true -> NoDup l.
Proof.
  induction l as [|x l IH]; simpl; intros H; constructor; apply andb_true_iff in H as [H1 H2].
  - intros Hin. apply negb_true_iff in H1.
    assert (existsb (N.eqb x) l = true) by (apply existsb_exists; exists x; split; [exact Hin|apply N.eqb_refl]).
    congruence.
  - apply IH, H2.
Qed.

Lemma PRESET_nodup : NoDup (map fst PRESET).
Proof. apply nodupb_NoDup. vm_compute. reflexivity. Qed.
Lemma PRESET_rel c t : In (c, t) PRESET <-> preset_rel c t.
Proof.
  rewrite <- preset_pairs_rel. apply pairs_same; vm_compute; reflexivity.
Qed.
Lemma PRESET_get c t : conv_get PRESET c = Some t <-> preset_rel c t.
Proof. rewrite conv_get_iff by exact PRESET_nodup. apply PRESET_rel. Qed.

(** ** Neologdn conversion map *)
Definition neologdn_pairs : list (char * char) :=
  filter (fun p => negb (N.eqb (fst p) 0xFF1D)) preset_pairs ++
  map (fun c => (c, prolonged_mark)) dash_variants ++ map (fun c => (c, 0x2D%N)) hyphen_variants.
Lemma neologdn_pairs_rel c t : In (c, t) neologdn_pairs <-> neologdn_rel c t.
Proof.
  unfold neologdn_pairs. rewrite !in_app_iff, filter_In, !in_map_iff, preset_pairs_rel. cbn [fst]. split.
  - intros [(H & Hn)|[(x & E & Hx)|(x & E & Hx)]].
    + apply negb_true_iff, N.eqb_neq in Hn. apply nr_preset; assumption.
    + injection E as <- <-. apply nr_dash, Hx.
    + injection E as <- <-. apply nr_hyphen, Hx.
  - intros [c' t' Hn H|c' H|c' H].
    + left. split; [exact H|apply negb_true_iff, N.eqb_neq, Hn].
    + right; left. exists c'. auto.
    + right; right. exists c'. auto.
Qed.
Lemma NEO_nodup : NoDup (map fst (neo_conv NEO)).
Proof. apply nodupb_NoDup. vm_compute. reflexivity. Qed.
Lemma NEO_rel c t : In (c, t) (neo_conv NEO) <-> neologdn_rel c t.
Proof. rewrite <- neologdn_pairs_rel. apply pairs_same; vm_compute; reflexivity. Qed.
Lemma NEO_get c t : conv_get (neo_conv NEO) c = Some t <-> neologdn_rel c t.
Proof. rewrite conv_get_iff by exact NEO_nodup. apply NEO_rel. Qed.

(** ** Ligature map *)
Definition composes_pairs : list (str * str) :=
  map (fun p => ([fst p; voiced_mark], [snd p]))
      (filter (fun p => negb (existsb (N.eqb (fst p)) uncomposed)) voiced_forms) ++
  map (fun p => ([fst p; semivoiced_mark], [snd p])) semivoiced_forms.
Lemma composes_pairs_rel k v : In (k, v) composes_pairs <->
  exists a m t, k = [a; m] /\ v = [t] /\ composes a m t.
Proof.
  unfold composes_pairs, composes. rewrite in_app_iff, !in_map_iff. split.
  - intros [([a t] & E & H)|([a t] & E & H)]; injection E as <- <-.
    + apply filter_In in H as [H Hf]. apply negb_true_iff in Hf.
      exists a, voiced_mark, t. split; [reflexivity|]. split; [reflexivity|]. left.
      split; [reflexivity|]. split; [exact H|]. intros Hin.
      assert (existsb (N.eqb a) uncomposed = true) by (apply existsb_exists; exists a; split; [exact Hin|apply N.eqb_refl]).
      cbn [fst] in Hf. congruence.
    + exists a, semivoiced_mark, t. auto.
  - intros (a & m & t & -> & -> & [(-> & H & Hn)|(-> & H)]).
    + left. exists (a, t). split; [reflexivity|]. apply filter_In. split; [exact H|].
      apply negb_true_iff. destruct (existsb (N.eqb (fst (a, t))) uncomposed) eqn:E; [|exact E].
      apply existsb_exists in E as (y & Hy & E). apply N.eqb_eq in E. cbn [fst] in E. subst. contradiction.
    + right. exists (a, t). auto.
Qed.

Definition spair_mem (p : str * str) (l : list (str * str)) : bool :=
  existsb (fun q => str_eqb (fst p) (fst q) && str_eqb (snd p) (snd q)) l.
Lemma spair_mem_In p l : spair_mem p l = true <-> In p l.
Proof.
  unfold spair_mem. rewrite existsb_exists. split.
  - intros ([a b] & Hin & E). destruct p as [c d]. cbn [fst snd] in E.
    apply andb_true_iff in E as [E1 E2]. apply str_eqb_eq in E1. apply str_eqb_eq in E2. subst. exact Hin.
  - intros H. exists p. split; [exact H|]. rewrite !str_eqb_refl. reflexivity.
Qed.
Lemma lig_rel k v : In (k, v) neologdn_lig <-> exists a m t, k = [a; m] /\ v = [t] /\ composes a m t.
Proof.
  rewrite <- composes_pairs_rel.
  assert (H1 : forallb (fun p => spair_mem p composes_pairs) neologdn_lig = true) by (vm_compute; reflexivity).
  assert (H2 : forallb (fun p => spair_mem p neologdn_lig) composes_pairs = true) by (vm_compute; reflexivity).
  rewrite forallb_forall in H1, H2. split; intros H; apply spair_mem_In; auto.
Qed.
Lemma lig_nodup : NoDup (map fst neologdn_lig).
Proof.
  unfold neologdn_lig. apply hm_collect_from_nodup; [exact str_eqb_eq|].
  apply hm_collect_from_nodup; [exact str_eqb_eq|constructor].
Qed.

Lemma overlap2 (x y z w : char) : x <> w -> y <> z -> [x; y] <> [z; w] -> never_overlap [x; y] [z; w].
Proof.
  intros H1 H2 H3 s i j (a & b & E & <-) (a' & b' & E' & <-). rewrite E in E'. clear E. cbn [length].
  assert (Q : forall k, nth_error (a ++ [x; y] ++ b) k = nth_error (a' ++ [z; w] ++ b') k) by (rewrite E'; reflexivity).
  destruct (le_lt_dec (length a + 2) (length a')) as [L|L]; [left; exact L|].
  destruct (le_lt_dec (length a' + 2) (length a)) as [L'|L']; [right; exact L'|].
  exfalso.
  assert (C : length a' = length a \/ length a' = length a + 1 \/ length a = length a' + 1) by lia.
  destruct C as [C|[C|C]].
  - pose proof (Q (length a)) as Q0. pose proof (Q (length a + 1)) as Q1.
    rewrite (nth_error_app2 a), (nth_error_app2 a') in Q0, Q1 by lia.
    replace (length a - length a) with 0 in Q0 by lia. replace (length a - length a') with 0 in Q0 by lia.
    replace (length a + 1 - length a) with 1 in Q1 by lia. replace (length a + 1 - length a') with 1 in Q1 by lia.
    simpl in Q0, Q1. congruence.
  - specialize (Q (length a')). rewrite (nth_error_app2 a), (nth_error_app2 a') in Q by lia.
    replace (length a' - length a) with 1 in Q by lia. replace (length a' - length a') with 0 in Q by lia.
    simpl in Q. congruence.
  - specialize (Q (length a)). rewrite (nth_error_app2 a), (nth_error_app2 a') in Q by lia.
    replace (length a - length a) with 0 in Q by lia. replace (length a - length a') with 1 in Q by lia.
    simpl in Q. congruence.
Qed.

(** Facts about all 52 entries, checked one by one. *)
Definition is_mark (c : char) : bool := N.eqb c voiced_mark || N.eqb c semivoiced_mark.
Definition entry_ok (p : str * str) : bool :=
  match fst p, snd p with
  | [a; m], [t] => negb (is_mark a) && is_mark m &&
      negb (existsb (fun q => existsb (N.eqb t) (fst q)) neologdn_lig) &&
      negb (is_ascii_alphanumeric a) && negb (is_ascii_alphanumeric m) && negb (is_ascii_alphanumeric t) &&
      negb (N.eqb a SPACE) && negb (N.eqb m SPACE) && negb (N.eqb t SPACE) &&
      negb (N.eqb t prolonged_mark) && negb (N.eqb a prolonged_mark) && negb (N.eqb m prolonged_mark) &&
      negb (existsb (fun q => N.eqb t (fst q)) (neo_conv NEO)) &&
      negb (mem N.eqb t TILDES)
  | _, _ => false
  end.
Lemma entries_ok : forallb entry_ok neologdn_lig = true.
Proof. vm_compute. reflexivity. Qed.

Record entry_facts (a m t : char) : Prop := EF {
  ef_a_mark : is_mark a = false; ef_m_mark : is_mark m = true;
  ef_t_key : forall k v, In (k, v) neologdn_lig -> ~ In t k;
  ef_a_alnum : ~ alnum a; ef_m_alnum : ~ alnum m; ef_t_alnum : ~ alnum t;
  ef_a_space : a <> SPACE; ef_m_space : m <> SPACE; ef_t_space : t <> SPACE;
  ef_t_long : t <> prolonged_mark; ef_a_long : a <> prolonged_mark; ef_m_long : m <> prolonged_mark;
  ef_t_conv : forall u, ~ In (t, u) (neo_conv NEO);
  ef_t_tilde : mem N.eqb t TILDES = false }.
Lemma lig_entry k v : In (k, v) neologdn_lig -> exists a m t, k = [a; m] /\ v = [t] /\ entry_facts a m t.
Proof.
  intros H. pose proof entries_ok as E. rewrite forallb_forall in E. specialize (E _ H).
  unfold entry_ok in E. cbn [fst snd] in E.
  destruct k as [|a [|m [|? ?]]]; try discriminate. destruct v as [|t [|? ?]]; try discriminate.
  exists a, m, t. split; [reflexivity|]. split; [reflexivity|].
  repeat match goal with H : _ && _ = true |- _ => apply andb_true_iff in H as [? ?] end.
  repeat match goal with H : negb _ = true |- _ => apply negb_true_iff in H end.
  assert (A : forall c, is_ascii_alphanumeric c = false -> ~ alnum c).
  { intros c Hc Ha. apply is_alnum_spec in Ha. congruence. }
  constructor; try (apply A; assumption); try (apply N.eqb_neq; assumption); try assumption.
  - intros k v Hk Ht.
    match goal with H : existsb (fun q => existsb (N.eqb t) (fst q)) _ = false |- _ => rename H into HH end.
    assert (existsb (fun q => existsb (N.eqb t) (fst q)) neologdn_lig = true); [|congruence].
    apply existsb_exists. exists (k, v). split; [exact Hk|]. apply existsb_exists. exists t.
    split; [exact Ht|apply N.eqb_refl].
  - intros u Hu.
    match goal with H : existsb (fun q => N.eqb t (fst q)) _ = false |- _ => rename H into HH end.
    assert (existsb (fun q => N.eqb t (fst q)) (neo_conv NEO) = true); [|congruence].
    apply existsb_exists. exists (t, u). split; [exact Hu|apply N.eqb_refl].
Qed.

Lemma lig_non_interfering : non_interfering neologdn_lig.
Proof.
  split; [|split].
  - intros k v H. destruct (lig_entry _ _ H) as (a & m & t & -> & -> & _). split; discriminate.
  - intros k v k' v' H H' Hne.
    destruct (lig_entry _ _ H) as (a & m & t & -> & -> & F).
    destruct (lig_entry _ _ H') as (a' & m' & t' & -> & -> & F').
    apply overlap2; [| |exact Hne]; intros E.
    + pose proof (ef_a_mark _ _ _ F). pose proof (ef_m_mark _ _ _ F'). congruence.
    + pose proof (ef_m_mark _ _ _ F). pose proof (ef_a_mark _ _ _ F'). congruence.
  - intros k v k' v' x H H' Hx Hx'.
    destruct (lig_entry _ _ H) as (a & m & t & -> & -> & F). destruct Hx as [<-|[]].
    exact (ef_t_key _ _ _ F _ _ H' Hx').
Qed.

(** ** The stages *)
Lemma NEO_red : neo_red NEO = CHOONPU. Proof. reflexivity. Qed.
Lemma NEO_elim : neo_elim NEO = elim_from_chars TILDES. Proof. vm_compute. reflexivity. Qed.
Lemma NEO_lig : neo_lig NEO = neologdn_lig. Proof. vm_compute. reflexivity. Qed.
Lemma tildes_not_alnum : forallb (fun c => negb (is_ascii_alphanumeric c)) TILDES = true.
Proof. vm_compute. reflexivity. Qed.
Opaque neologdn_lig NEO TILDES.

Definition neo_conv_text (s : str) : str := map (conv1 (neo_conv NEO)) s.
Definition neo_pre (s : str) : str := dot_modify (red_modify CHOONPU (neo_conv_text s)).
Definition neo_tilde (s : str) : str := elim_modify (elim_from_chars TILDES) (neo_pre s).
Definition neo_text (s : str) : str := lig_modify o_id neologdn_lig (neo_tilde s).

Lemma neo_lig_order o o' s : lig_modify o neologdn_lig s = lig_modify o' neologdn_lig s.
Proof.
  apply lig_modify_iff; [apply lig_nodup|apply lig_non_interfering|].
  apply lig_replaced; [apply lig_nodup|apply lig_non_interfering].
Qed.

(** [dotted_ok] survives the removal of characters that are neither spaces nor ASCII letters/digits. *)
Lemma filter_hd_alnum (f : char -> bool) s : (forall c, alnum c -> f c = true) ->
  alnum_opt (hd_error s) -> hd_error (filter f s) = hd_error s.
Proof.
  intros Hf (c & E & A). destruct s as [|x s]; [discriminate|]. injection E as ->. simpl.
  rewrite (Hf c A). reflexivity.
Qed.
Lemma filter_dotted (f : char -> bool) s : (forall c, alnum c -> f c = true) -> forall p,
  dotted_ok p s -> forall p', (alnum_opt p -> alnum_opt p') -> dotted_ok p' (filter f s).
Proof.
  intros Hf. induction s as [|c s IH]; intros p H p' Hp; cbn [filter]; [exact I|].
  destruct H as [H1 H2]. destruct (f c) eqn:E.
  - split.
    + intros Hc. destruct (H1 Hc) as [A B]. split; [apply Hp, A|].
      rewrite filter_hd_alnum by assumption. exact B.
    + apply (IH (Some c) H2). trivial.
  - apply (IH (Some c) H2). intros (d & Ed & A). injection Ed as <-.
    exfalso. rewrite (Hf c A) in E. discriminate.
Qed.

Lemma replaced_hd_alnum s t : replaced (rules neologdn_lig) s t -> alnum_opt (hd_error s) -> hd_error t = hd_error s.
Proof.
  intros H (c & E & A). destruct H as [|k v s out Hk Hr H|x s out Hm H].
  - discriminate.
  - destruct (lig_entry _ _ Hr) as (a & m & t & -> & -> & F). injection E as <-.
    destruct (ef_a_alnum _ _ _ F A).
  - reflexivity.
Qed.
Lemma replaced_dotted s t : replaced (rules neologdn_lig) s t -> forall p p',
  dotted_ok p s -> (alnum_opt p -> alnum_opt p') -> dotted_ok p' t.
Proof.
  induction 1 as [|k v s out Hk Hr H IH|x s out Hm H IH]; intros p p' Hd Hp.
  - exact I.
  - destruct (lig_entry _ _ Hr) as (a & m & t & -> & -> & F). cbn [app] in *.
    destruct Hd as (_ & _ & Hd). split; [intros E; destruct (ef_t_space _ _ _ F E)|].
    apply (IH _ _ Hd). intros (d & E & A). injection E as <-. destruct (ef_m_alnum _ _ _ F A).
  - destruct Hd as [H1 H2]. split.
    + intros E. destruct (H1 E) as [A B]. split; [apply Hp, A|]. rewrite (replaced_hd_alnum _ _ H B). exact B.
    + apply (IH _ _ H2). trivial.
Qed.

Lemma tilde_not_alnum c : alnum c -> negb (mem N.eqb c TILDES) = true.
Proof.
  intros A. apply negb_true_iff, (mem_false N.eqb N.eqb_eq). intros H.
  apply is_alnum_spec in A.
  pose proof tildes_not_alnum as E. rewrite forallb_forall in E. specialize (E c H). rewrite A in E. discriminate.
Qed.

Lemma neo_tilde_ok s : dotted_ok None (neo_tilde s).
Proof.
  unfold neo_tilde. rewrite elim_from_chars_filter.
  apply filter_dotted with None; [intros c; apply tilde_not_alnum| |trivial].
  apply dotted_ok_between, dot_modify_between.
Qed.
Lemma lig_stage s o : replaced (rules neologdn_lig) s (lig_modify o neologdn_lig s).
Proof. apply lig_replaced; [apply lig_nodup|apply lig_non_interfering]. Qed.
Lemma neo_text_ok s : dotted_ok None (neo_text s).
Proof. exact (replaced_dotted _ _ (lig_stage (neo_tilde s) o_id) None None (neo_tilde_ok s) (fun h => h)). Qed.


Lemma neo_modify_eq o s : neo_modify o NEO s = Ok (neo_text s).
Proof.
  unfold neo_modify. rewrite conv_modify_eq. cbn [bind]. rewrite NEO_red, NEO_elim, NEO_lig.
  rewrite (neo_lig_order (sub o 1) o_id).
  change (Ok (dot_modify (neo_text s)) = Ok (neo_text s)). f_equal.
  apply dot_modify_fix, dotted_ok_between, neo_text_ok.
Qed.
Lemma neo_positions_eq o s : neo_modify_with_positions o NEO s = Ok (neo_text s, []).
Proof.
  unfold neo_modify_with_positions.
  destruct (conv_positions_eq (sub o 0) (neo_conv NEO) s) as (ps & E & _). rewrite E. cbn [bind fst snd].
  rewrite NEO_red, red_positions_eq. cbn [bind fst snd]. rewrite NEO_elim, NEO_lig.
  rewrite (neo_lig_order (sub o 1) o_id). reflexivity.
Qed.
