(** Lemmas behind C54 and C57. *)
From Verif Require Import Base BaseFacts Corr CharsetData Table Charset Converter ModifierKind ChanomaModel CharSpec Spec
  CorrFacts TableFacts ConverterFacts ConverterProps CharsetFacts NeoFacts.

Definition cjk_pairs : list item :=
  map (fun i => Item [0x3300 + N.of_nat i]%N (nth i cjk_forms []))
      (filter (fun i => negb (existsb (N.eqb (0x3300 + N.of_nat i)%N) (map fst cjk_override))) (seq 0 (length cjk_forms))) ++
  concat (map (fun p => map (fun v => Item [fst p] v) (snd p)) cjk_override).

Lemma existsb_eqb_In (c : char) l : existsb (N.eqb c) l = true <-> In c l.
Proof.
  rewrite existsb_exists. split.
  - intros (y & Hy & E). apply N.eqb_eq in E. subst. exact Hy.
  - intros H. exists c. split; [exact H|apply N.eqb_refl].
Qed.
Lemma existsb_eqb_notin (c : char) l : existsb (N.eqb c) l = false <-> ~ In c l.
Proof. rewrite <- existsb_eqb_In. destruct (existsb (N.eqb c) l); intuition congruence. Qed.

Lemma cjk_pairs_rel it : In it cjk_pairs <-> exists c v, it = Item [c] v /\ cjk_rel c v.
Proof.
  unfold cjk_pairs. rewrite in_app_iff, in_map_iff, in_concat. split.
  - intros [(i & <- & Hi)|(l & Hl & Hit)].
    + apply filter_In in Hi as [Hi Hf]. apply in_seq in Hi. apply negb_true_iff, existsb_eqb_notin in Hf.
      exists (0x3300 + N.of_nat i)%N, (nth i cjk_forms []). split; [reflexivity|]. left.
      exists i. split; [reflexivity|]. split; [apply nth_error_nth'; lia|exact Hf].
    + apply in_map_iff in Hl as ((c & vs) & <- & Hc). apply in_map_iff in Hit as (v & <- & Hv).
      exists c, v. split; [reflexivity|]. right. exists vs. auto.
  - intros (c & v & -> & [(i & -> & E & Hn)|(l & Hl & Hv)]).
    + left. exists i. split.
      * f_equal. apply nth_error_nth, E.
      * apply filter_In. split.
        { apply in_seq. assert (i < length cjk_forms) by (apply nth_error_Some; congruence). lia. }
        { apply negb_true_iff, existsb_eqb_notin, Hn. }
    + right. exists (map (fun v => Item [c] v) l). split; [|apply in_map_iff; exists v; auto].
      apply in_map_iff. exists (c, l). auto.
Qed.
Definition item_mem (it : item) l := existsb (item_eqb it) l.
Lemma item_mem_In it l : item_mem it l = true <-> In it l.
Proof.
  unfold item_mem. rewrite existsb_exists. split.
  - intros (y & Hy & E). apply item_eqb_eq in E. subst. exact Hy.
  - intros H. exists it. split; [exact H|apply item_eqb_eq; reflexivity].
Qed.
Lemma C57_lemma o it : In it (CJK_COMPATIBILITIES o) <-> exists c v, it = Item [c] v /\ cjk_rel c v.
Proof.
  rewrite CJK_eq, <- cjk_pairs_rel.
  assert (H1 : forallb (fun p => item_mem p cjk_pairs) CJK_items = true) by (vm_compute; reflexivity).
  assert (H2 : forallb (fun p => item_mem p CJK_items) cjk_pairs = true) by (vm_compute; reflexivity).
  rewrite forallb_forall in H1, H2. split; intros H; apply item_mem_In; auto.
Qed.

(** Converter *)
Definition CJK_conv : converter := Eval vm_compute in hm_collect N.eqb (pairs_of CJK_items).
Lemma cjk_table_eq o : table_add o table_new CJK_COMPATIBILITIES = Table CJK_items OriginNew.
Proof.
  unfold table_add, table_new. cbn [t_corr t_origin]. f_equal.
  rewrite corr_add_assign_usort, CJK_eq. vm_compute. reflexivity.
Qed.
Lemma cjk_chanoma_eq o : chanoma_from_table (table_add o table_new CJK_COMPATIBILITIES) = Ok [MConv CJK_conv].
Proof. rewrite cjk_table_eq. vm_compute. reflexivity. Qed.
Lemma CJK_conv_nodup : NoDup (map fst CJK_conv).
Proof. apply nodupb_NoDup. vm_compute. reflexivity. Qed.

Lemma cjk_sound c t : In (c, t) CJK_conv -> exists v, In (Item [c] (t :: v)) CJK_items /\
  (c <> 0x33A3%N \/ t :: v = lit "mm3").
Proof.
  assert (G : forallb (fun p => existsb (fun it =>
     str_eqb (from it) [fst p] && (match to it with y :: _ => N.eqb y (snd p) | [] => false end) &&
     (negb (N.eqb (fst p) 0x33A3) || str_eqb (to it) (lit "mm3"))) CJK_items) CJK_conv = true)
     by (vm_compute; reflexivity).
  rewrite forallb_forall in G. intros H. specialize (G _ H). cbn [fst snd] in G.
  apply existsb_exists in G as (it & Hit & E). apply andb_true_iff in E as [E E3].
  apply andb_true_iff in E as [E1 E2]. apply str_eqb_eq in E1.
  destruct it as [f v0]. cbn [from to] in *. destruct v0 as [|y v]; [discriminate|].
  apply N.eqb_eq in E2. subst. exists v. split; [exact Hit|].
  apply orb_true_iff in E3 as [E3|E3].
  - left. apply negb_true_iff, N.eqb_neq in E3. exact E3.
  - right. apply str_eqb_eq, E3.
Qed.
Lemma cjk_complete c : (0x3300 <= c <= 0x33FF)%N -> c <> 0x33A4%N -> exists t, In (c, t) CJK_conv.
Proof.
  assert (G : forallb (fun i => N.eqb (0x3300 + N.of_nat i)%N 0x33A4 ||
               existsb (fun p => N.eqb (fst p) (0x3300 + N.of_nat i)%N) CJK_conv) (seq 0 256) = true)
    by (vm_compute; reflexivity).
  rewrite forallb_forall in G. intros Hr Hn.
  specialize (G (N.to_nat (c - 0x3300)) ltac:(apply in_seq; lia)).
  replace (0x3300 + N.of_nat (N.to_nat (c - 0x3300)))%N with c in G by lia.
  apply orb_true_iff in G as [G|G]; [apply N.eqb_eq in G; contradiction|].
  apply existsb_exists in G as ((c' & t) & Hin & E). apply N.eqb_eq in E. cbn [fst] in E. subst. exists t. exact Hin.
Qed.
Lemma cjk_only c t : In (c, t) CJK_conv -> (0x3300 <= c <= 0x33FF)%N /\ c <> 0x33A4%N.
Proof.
  assert (G : forallb (fun p => N.leb 0x3300 (fst p) && N.leb (fst p) 0x33FF && negb (N.eqb (fst p) 0x33A4)) CJK_conv = true)
    by (vm_compute; reflexivity).
  rewrite forallb_forall in G. intros H. specialize (G _ H). cbn [fst] in G.
  apply andb_true_iff in G as [G G3]. apply andb_true_iff in G as [G1 G2].
  apply N.leb_le in G1. apply N.leb_le in G2. apply negb_true_iff, N.eqb_neq in G3. auto.
Qed.

Opaque CJK_COMPATIBILITIES.
(** First characters of the replacements. *)
Lemma C54_lemma o ch : chanoma_from_table (table_add o table_new CJK_COMPATIBILITIES) = Ok ch -> forall dbg o' s,
  exists out, normalize dbg o' ch s = Ok out /\
    pointwise (fun c t => exists v, cjk_rel c (t :: v) /\ (c = 0x33A3%N -> t :: v = lit "mm3")) s out.
Proof.
  rewrite cjk_chanoma_eq. intros E dbg o' s. injection E as <-. rewrite normalize_conv.
  eexists. split; [reflexivity|]. unfold pointwise.
  induction s as [|c s IH]; cbn [map]; constructor; [|exact IH].
  unfold conv1. destruct (conv_get CJK_conv c) as [t|] eqn:Eg.
  - left. apply (conv_get_iff _ _ _ CJK_conv_nodup) in Eg.
    destruct (cjk_sound _ _ Eg) as (v & Hv & Hm). exists v. split.
    + rewrite <- (CJK_eq o) in Hv. apply C57_lemma in Hv as (c' & v' & Ei & Hr).
      injection Ei as <- <-. exact Hr.
    + intros ->. destruct Hm as [Hm|Hm]; [contradiction|exact Hm].
  - right. split; [reflexivity|]. intros t (v & Hr & _).
    assert (Hk : In (Item [c] (t :: v)) (CJK_COMPATIBILITIES o)) by (apply C57_lemma; exists c, (t :: v); auto).
    rewrite CJK_eq in Hk.
    assert (Hblock : (0x3300 <= c <= 0x33FF)%N /\ c <> 0x33A4%N).
    { assert (G : forallb (fun it => match from it with [c] => N.leb 0x3300 c && N.leb c 0x33FF && negb (N.eqb c 0x33A4) | _ => true end) CJK_items = true)
        by (vm_compute; reflexivity).
      rewrite forallb_forall in G. specialize (G _ Hk). cbn [from] in G.
      apply andb_true_iff in G as [G G3]. apply andb_true_iff in G as [G1 G2].
      apply N.leb_le in G1. apply N.leb_le in G2. apply negb_true_iff, N.eqb_neq in G3. auto. }
    destruct (cjk_complete c (proj1 Hblock) (proj2 Hblock)) as (t' & Ht').
    apply (conv_get_iff _ _ _ CJK_conv_nodup) in Ht'. congruence.
Qed.
Lemma C54_block o c : (exists v, In (Item [c] v) (CJK_COMPATIBILITIES o)) <->
  (0x3300 <= c <= 0x33FF)%N /\ c <> 0x33A4%N.
Proof.
  rewrite CJK_eq. split.
  - intros (v & Hv).
    assert (G : forallb (fun it => match from it with [c] => N.leb 0x3300 c && N.leb c 0x33FF && negb (N.eqb c 0x33A4) | _ => true end) CJK_items = true)
        by (vm_compute; reflexivity).
    rewrite forallb_forall in G. specialize (G _ Hv). cbn [from] in G.
    apply andb_true_iff in G as [G G3]. apply andb_true_iff in G as [G1 G2].
    apply N.leb_le in G1. apply N.leb_le in G2. apply negb_true_iff, N.eqb_neq in G3. auto.
  - intros [H1 H2]. destruct (cjk_complete c H1 H2) as (t & Ht). destruct (cjk_sound _ _ Ht) as (v & Hv & _).
    exists (t :: v). exact Hv.
Qed.
Lemma C54_unique o c v v' : In (Item [c] v) (CJK_COMPATIBILITIES o) -> In (Item [c] v') (CJK_COMPATIBILITIES o) ->
  v <> v' -> c = 0x33A3%N.
Proof.
  rewrite CJK_eq.
  assert (G : forallb (fun it => forallb (fun it' => negb (str_eqb (from it) (from it')) || str_eqb (to it) (to it') ||
                str_eqb (from it) [0x33A3]%N) CJK_items) CJK_items = true) by (vm_compute; reflexivity).
  rewrite forallb_forall in G. intros H H' Hne. specialize (G _ H). rewrite forallb_forall in G. specialize (G _ H').
  cbn [from to] in G. rewrite str_eqb_refl in G. cbn [negb orb] in G.
  apply orb_true_iff in G as [G|G]; apply str_eqb_eq in G; congruence.
Qed.
