(** Properties C82 (which texts are results) and C83 (merging conversions and eliminations). *)
From Coq Require Import String.
From Verif Require Import Base BaseFacts Utf8 StrOps Corr Table Converter Eliminator Reducer Dotted TrimMod Ligature Neologdn ModifierKind ChanomaModel
  CharSpec Spec CharsetFacts ConverterFacts ConverterProps SimpleFacts SimpleProps LigFacts NeoFacts NeoProps PropsConverter PropsNeo PropsPipeline CommProps PropsLig NeoMore.
Local Open Scope string_scope.
Local Open Scope list_scope.
Opaque neo_text.

(** ** C82 *)
(** [out] is the result of some text. *)
Definition obtainable (c : chanoma) (out : str) : Prop := exists s, valid_str s /\ result c s out.
(** A tilde between every two adjacent prolonged sound marks. *)
Fixpoint gap (s : str) : str :=
  match s with
  | [] => []
  | c :: r => c :: (match r with d :: _ => if (N.eqb c prolonged_mark && N.eqb d prolonged_mark)%bool then [0x7E%N] else [] | [] => [] end) ++ gap r
  end.
Lemma gap_hd s : hd_error (gap s) = hd_error s.
Proof. destruct s; reflexivity. Qed.
Lemma gap_cons c r : gap (c :: r) = c :: gap r \/ (c = prolonged_mark /\ hd_error r = Some prolonged_mark /\ gap (c :: r) = c :: 0x7E%N :: gap r).
Proof.
  destruct r as [|d r]; [left; reflexivity|]. cbn [gap]. destruct (N.eqb_spec c prolonged_mark) as [->|]; cbn [andb]; [|left; reflexivity].
  destruct (N.eqb_spec d prolonged_mark) as [->|]; [right|left]; auto.
Qed.
Lemma gap_In x s : In x (gap s) -> In x s \/ x = 0x7E%N.
Proof.
  induction s as [|c s IH]; [intros []|]. destruct (gap_cons c s) as [->|(_ & _ & ->)]; cbn [In]; intuition (subst; auto).
Qed.
Lemma gap_filter s : (forall c, In c s -> ~ In c tilde_variants) -> filter not_tilde (gap s) = s.
Proof.
  induction s as [|c s IH]; intros H; [reflexivity|]. assert (T : not_tilde c = true) by (apply not_tilde_true, H; left; reflexivity).
  assert (E : filter not_tilde (gap s) = s) by (apply IH; intros d D; apply H; right; exact D).
  destruct (gap_cons c s) as [->|(_ & _ & ->)]; cbn [filter]; rewrite T.
  - rewrite E. reflexivity.
  - change (not_tilde 0x7E%N) with false. cbn [filter]. rewrite E. reflexivity.
Qed.
Lemma gap_collapsed s : collapsed prolonged_mark (gap s) (gap s).
Proof.
  induction s as [|c s IH]; [constructor|]. destruct (N.eq_dec c prolonged_mark) as [->|D].
  - destruct (gap_cons prolonged_mark s) as [E|(_ & _ & E)]; rewrite E.
    + apply (col_run _ 1); [lia| |exact IH]. rewrite gap_hd. intros H. destruct s as [|d s]; [discriminate|]. injection H as ->.
      discriminate E.
    + apply (col_run _ 1); [lia|discriminate|]. apply col_other; [discriminate|exact IH].
  - destruct (gap_cons c s) as [->|(C & _)]; [|contradiction]. apply col_other; [exact D|exact IH].
Qed.
Lemma gap_dotted s : forall p, dotted_ok p s -> dotted_ok p (gap s).
Proof.
  induction s as [|c s IH]; intros p H; [exact H|]. destruct H as [H1 H2]. destruct (gap_cons c s) as [->|(-> & Hh & ->)].
  - split; [rewrite gap_hd; exact H1|apply IH, H2].
  - split; [intros C; discriminate|]. split; [intros C; discriminate|]. apply (dotted_ok_weaken (Some prolonged_mark)); [rewrite gap_hd, Hh; discriminate|].
    apply IH, H2.
Qed.
Lemma gap_result s : neologdn_shape s -> neologdn_result (gap s) s.
Proof.
  intros (S1 & S2 & S3 & S4). exists (gap s), (gap s), (gap s). split; [|split; [apply gap_collapsed|split]].
  - apply conv_id. intros c t H. apply gap_In in H as [H| ->]; [apply S1, H|]. apply ascii_neo. reflexivity.
  - apply dotted_ok_fix, gap_dotted, dotted_ok_between, S4.
  - rewrite gap_filter by exact S2. apply replaced_id. intros k v (a & m & t & -> & -> & H). split; [discriminate|]. apply (S3 a m t H).
Qed.
Lemma result_neo o ch : chanoma_neologdn o = Ok ch -> forall s out, result ch s out <-> neologdn_result s out.
Proof.
  intros H s out. split; [intros (o' & E); apply (C24_exact o ch H _ _ _ _) in E; exact E|]. intros R. exists o. apply (C24_exact o ch H). exact R.
Qed.
(** Neologdn: the texts of the shape C25 describes, and no others. *)
Theorem C82_neologdn : forall o ch, chanoma_neologdn o = Ok ch -> forall out, valid_str out ->
  (obtainable ch out <-> neologdn_shape out).
Proof.
  intros o ch H out V. split.
  - intros (s & _ & o' & E). exact (C25_shape o ch H _ _ _ _ E).
  - intros S. exists (gap out). split.
    + apply Forall_forall. intros c I. apply gap_In in I as [I| ->]; [|reflexivity]. unfold valid_str in V. rewrite Forall_forall in V. apply V, I.
    + apply (result_neo o ch H). apply gap_result, S.
Qed.
Print Assumptions C82_neologdn.
(** The other modifiers. *)
Lemma scalar_conv cc : NoDup (map fst cc) -> (forall c t, In (c, t) cc -> is_scalar c = true /\ is_scalar t = true) -> forall d, is_scalar d = true ->
  ((exists c, is_scalar c = true /\ conv1 cc c = d) <-> (exists c, In (c, d) cc) \/ forall t, ~ In (d, t) cc).
Proof.
  intros ND S d V. split.
  - intros (c & _ & E). unfold conv1, conv_get in E. destruct (hm_get N.eqb c cc) as [t|] eqn:G.
    + subst t. left. exists c. apply (hm_get_In N.eqb N.eqb_eq) in G. exact G.
    + subst d. right. intros t I. apply (hm_get_None N.eqb N.eqb_eq) in G. apply G. apply (in_map fst) in I. exact I.
  - intros [(c & I)|N].
    + exists c. split; [apply (S c d I)|]. unfold conv1, conv_get. rewrite (hm_In_get N.eqb N.eqb_eq c d cc ND I). reflexivity.
    + exists d. split; [exact V|]. unfold conv1, conv_get. destruct (hm_get N.eqb d cc) as [t|] eqn:G; [|reflexivity].
      apply (hm_get_In N.eqb N.eqb_eq) in G. destruct (N t G).
Qed.
(** A conversion: texts of characters that are a replacement or not replaced. *)
Theorem C82_conversion : forall cc, NoDup (map fst cc) -> (forall c t, In (c, t) cc -> is_scalar c = true /\ is_scalar t = true) ->
  forall out, valid_str out -> (obtainable [MConv cc] out <-> forall d, In d out -> (exists c, In (c, d) cc) \/ forall t, ~ In (d, t) cc).
Proof.
  intros cc ND S out V. pose proof (scalar_conv cc ND S) as K. split.
  - intros (s & Vs & R) d I. apply (does_conv cc s out) in R. subst out. apply in_map_iff in I as (c & E & I). unfold valid_str in V, Vs.
    rewrite Forall_forall in V, Vs. apply (K d); [apply V, in_map_iff; eauto|]. exists c. split; [apply Vs, I|exact E].
  - intros H. assert (E : exists s, valid_str s /\ map (conv1 cc) s = out).
    { induction out as [|d out IH]; [exists []; split; [constructor|reflexivity]|]. inversion V as [|? ? Vd Vo]; subst.
      destruct IH as (s & Vs & E); [exact Vo|intros x I; apply H; right; exact I|].
      destruct (proj2 (K d Vd) (H d (or_introl eq_refl))) as (c & Vc & Ec). exists (c :: s). split; [constructor; assumption|]. cbn [map]. rewrite E, Ec. reflexivity. }
    destruct E as (s & Vs & E). exists s. split; [exact Vs|]. apply (does_conv cc s out). auto.
Qed.
Print Assumptions C82_conversion.
Lemma final_conv cc (R : char -> char -> Prop) : (forall c t, conv_get cc c = Some t <-> R c t) -> (forall c t u, R c t -> ~ R t u) ->
  forall out, valid_str out -> (obtainable [MConv cc] out <-> forall c t, In c out -> ~ R c t).
Proof.
  intros G F out V. split.
  - intros (s & _ & H) d t I P. apply (does_conv cc s out) in H. subst out. apply in_map_iff in I as (c & E & _).
    unfold conv1 in E. destruct (conv_get cc c) as [t'|] eqn:K.
    + subst t'. apply G in K. exact (F c d t K P).
    + subst d. apply G in P. congruence.
  - intros N. exists out. split; [exact V|]. apply (does_conv cc out out). symmetry. rewrite <- (map_id out) at 2. apply map_ext_in. intros c I.
    unfold conv1. destruct (conv_get cc c) as [t|] eqn:K; [|reflexivity]. apply G in K. destruct (N c t I K).
Qed.
(** The preset: texts without convertible characters. *)
Theorem C82_preset : forall o ch, chanoma_preset o = Ok ch -> forall out, valid_str out ->
  (obtainable ch out <-> forall c t, In c out -> ~ preset_rel c t).
Proof.
  intros o ch H. rewrite chanoma_preset_eq in H. apply Ok_inj in H. subst ch. exact (final_conv PRESET preset_rel PRESET_get preset_rel_final).
Qed.
Print Assumptions C82_preset.
(** Elimination, run reduction, trimming, dotted spaces: the texts they leave unchanged. *)
Theorem C82_elimination : forall el out, valid_str out -> (obtainable [MElim el] out <-> forall c, In c out -> ~ In c el).
Proof.
  intros el out V. split.
  - intros (s & _ & R) c I J. apply (does_elim el s out) in R. subst out. apply filter_In in I as [_ I].
    apply negb_true_iff in I. apply (mem_false N.eqb N.eqb_eq) in I. exact (I J).
  - intros H. exists out. split; [exact V|]. apply (does_elim el out out). symmetry. apply filter_id. intros c I.
    apply negb_true_iff, (mem_false N.eqb N.eqb_eq), H, I.
Qed.
Print Assumptions C82_elimination.
Theorem C82_reduction : forall k out, valid_str out -> (obtainable [MRed k] out <-> forall a b, out <> a ++ k :: k :: b).
Proof.
  intros k out V. split.
  - intros (s & _ & o & R). exact (proj1 (C11_stable_lemma false o false o k s out R)).
  - intros H. exists out. split; [exact V|]. exists no_order. rewrite normalize_red. f_equal. apply no_adjacent_fix. exact H.
Qed.
Print Assumptions C82_reduction.
Theorem C82_trimming : forall out, valid_str out -> (obtainable [MTrim] out <-> hd_error out <> Some space /\ hd_error (rev out) <> Some space).
Proof.
  intros out V. split.
  - intros (s & _ & R). apply (does_trim s out) in R. subst out. destruct (trim_modify_trimmed s) as (A & B & _). auto.
  - intros [A B]. exists out. split; [exact V|]. apply (does_trim out out). symmetry. apply (trimmed_unique out); [apply trim_modify_trimmed|].
    split; [exact A|]. split; [exact B|]. exists 0, 0. cbn. rewrite app_nil_r. reflexivity.
Qed.
Print Assumptions C82_trimming.
Theorem C82_dotted : forall out, valid_str out -> (obtainable [MDot] out <-> spaces_between out).
Proof.
  intros out V. split.
  - intros (s & _ & o & R). rewrite normalize_dot in R. apply Ok_inj in R. subst out. apply dot_modify_between.
  - intros H. exists out. split; [exact V|]. exists no_order. rewrite normalize_dot. f_equal. apply dot_modify_fix, H.
Qed.
Print Assumptions C82_dotted.
(** Ligatures that do not interfere: texts without keys. *)
Theorem C82_ligatures : forall m, NoDup (map fst m) -> non_interfering m -> forall out, valid_str out ->
  (obtainable [MLig m] out <-> forall k v, In (k, v) m -> ~ occurs k out).
Proof.
  intros m ND NI out V. split.
  - intros (s & _ & o & R) k v I. destruct (C21_simultaneous false o m s ND NI) as (out' & E & _ & _ & N). rewrite R in E. injection E as <-. exact (N k v I).
  - intros H. exists out. split; [exact V|]. exists no_order. destruct (C21_simultaneous false no_order m out ND NI) as (out' & E & U & _).
    rewrite E. f_equal. symmetry. apply U. apply replaced_id. intros k v I. split; [|exact (H k v I)].
    exact (proj1 (proj1 NI k v I)).
Qed.
Print Assumptions C82_ligatures.
(** Two prolonged sound marks are a result, a space next to one is not; "ba" is a result of the table a -> b, b -> a, c -> b; "c" is not. *)
Example C82_case :
  (exists ch, chanoma_neologdn no_order = Ok ch /\ obtainable ch [prolonged_mark; prolonged_mark] /\ ~ obtainable ch [prolonged_mark; space; prolonged_mark]) /\
  obtainable [MConv [(0x61, 0x62); (0x62, 0x61); (0x63, 0x62)]%N] (lit "ba") /\ ~ obtainable [MConv [(0x61, 0x62); (0x62, 0x61); (0x63, 0x62)]%N] (lit "c").
Proof.
  split; [|split].
  - destruct (C24_builds no_order) as (ch & H). exists ch. split; [exact H|]. split.
    + exists (gap [prolonged_mark; prolonged_mark]). split; [repeat constructor|]. apply (result_neo _ _ H), gap_result.
      split; [|split; [|split]].
      * assert (M : neologdn_rel 0xFF70%N prolonged_mark) by (apply nr_dash; cbn; auto).
        intros c t [<-|[<-|[]]] R; exact (neologdn_rel_final _ _ _ M R).
      * intros c [<-|[<-|[]]]; cbn; intuition discriminate.
      * intros a m t K O. assert (In m [prolonged_mark; prolonged_mark]) as I.
        { destruct O as (i & x & y & -> & _). apply in_app_iff. right. right. left. reflexivity. }
        destruct K as [(-> & _)|(-> & _)]; cbn in I; intuition discriminate.
      * intros a b E. assert (In space [prolonged_mark; prolonged_mark]) as I by (rewrite E; apply in_elt). cbn in I. intuition discriminate.
    + intros (s & _ & o & R). pose proof (C25_shape _ _ H _ _ _ _ R) as (_ & _ & _ & B). destruct (B [prolonged_mark] [prolonged_mark] eq_refl) as [(x & E & A) _].
      injection E as <-. exact (long_not_alnum A).
  - exists (lit "ab"). split; [repeat constructor|]. exists no_order. reflexivity.
  - intros (s & _ & R). apply (does_conv _ s) in R. destruct s as [|c s]; [discriminate|]. cbn [map] in R. injection R as R _. unfold conv1, conv_get in R. cbn [hm_get] in R.
    destruct (N.eqb_spec c 0x61); [discriminate|]. destruct (N.eqb_spec c 0x62); [discriminate|]. destruct (N.eqb_spec c 0x63); [discriminate|]. congruence.
Qed.

(** ** C83 *)
Definition conversion_or_elimination (m : modifier) : Prop := match m with MConv _ | MElim _ => True | _ => False end.
Definition composed (a b : converter) : converter :=
  map (fun k => (k, conv1 b (conv1 a k))) (nodup N.eq_dec (map fst a ++ map fst b)).
Lemma composed_get a b c : conv1 (composed a b) c = conv1 b (conv1 a c).
Proof.
  unfold conv1 at 1, conv_get, composed. set (l := nodup N.eq_dec (map fst a ++ map fst b)).
  assert (G : forall l, hm_get N.eqb c (map (fun k => (k, conv1 b (conv1 a k))) l) = if in_dec N.eq_dec c l then Some (conv1 b (conv1 a c)) else None).
  { clear. induction l as [|k l IH]; [reflexivity|]. cbn [map hm_get]. destruct (N.eqb_spec c k) as [->|D].
    - destruct (in_dec N.eq_dec k (k :: l)) as [_|N]; [reflexivity|]. destruct N. left. reflexivity.
    - rewrite IH. destruct (in_dec N.eq_dec c l) as [I|I]; destruct (in_dec N.eq_dec c (k :: l)) as [J|J]; try reflexivity.
      + destruct J. right. exact I.
      + destruct J as [J|J]; [congruence|contradiction]. }
  rewrite G. destruct (in_dec N.eq_dec c l) as [I|I]; [reflexivity|]. assert (N : ~ In c (map fst a ++ map fst b)) by (intros J; apply I, nodup_In, J).
  rewrite in_app_iff in N. assert (A : conv1 a c = c).
  { unfold conv1, conv_get. rewrite (proj2 (hm_get_None N.eqb N.eqb_eq c a)) by tauto. reflexivity. }
  rewrite A. unfold conv1, conv_get. rewrite (proj2 (hm_get_None N.eqb N.eqb_eq c b)) by tauto. reflexivity.
Qed.
(** The characters that [cc] turns into characters of [el]. *)
Definition before (cc : converter) (el : list char) : list char := filter (fun c => mem N.eqb (conv1 cc c) el) (map fst cc ++ el).
Lemma before_In cc el c : In c (before cc el) <-> In (conv1 cc c) el.
Proof.
  unfold before. rewrite filter_In, in_app_iff, (mem_In N.eqb N.eqb_eq). split; [tauto|]. intros H. split; [|exact H].
  destruct (hm_get N.eqb c cc) as [t|] eqn:G.
  - left. apply (hm_get_In N.eqb N.eqb_eq) in G. apply (in_map fst) in G. exact G.
  - right. unfold conv1, conv_get in H. rewrite G in H. exact H.
Qed.
Lemma normal_form c : Forall conversion_or_elimination c -> exists el cc, NoDup el /\ NoDup (map fst cc) /\
  forall s out, result c s out <-> out = map (conv1 cc) (filter (fun x => negb (mem N.eqb x el)) s).
Proof.
  induction c as [|m c IH] using rev_ind; intros F.
  - exists [], []. split; [constructor|]. split; [constructor|]. intros s out. rewrite result_nil, filter_all by reflexivity.
    rewrite (map_ext (conv1 []) (fun x => x)), map_id by reflexivity. tauto.
  - apply Forall_app in F as [Fc Fm]. inversion Fm as [|? ? Hm _]; subst. destruct (IH Fc) as (el & cc & N1 & N2 & R). destruct m as [d|e| | | | |]; try contradiction.
    + exists el, (composed cc d). split; [exact N1|]. split.
      { unfold composed. rewrite map_map, map_id. apply NoDup_nodup. }
      intros s out. rewrite result_app. split.
      * intros (mid & A & B). apply R in A. apply (does_conv d) in B. subst. rewrite map_map. apply map_ext. intros x. rewrite composed_get. reflexivity.
      * intros ->. eexists. split; [apply R; reflexivity|]. apply (does_conv d). rewrite map_map. apply map_ext. intros x. apply composed_get.
    + exists (nodup N.eq_dec (el ++ before cc e)), cc. split; [apply NoDup_nodup|]. split; [exact N2|].
      assert (K : forall s, filter (fun c => negb (mem N.eqb c e)) (map (conv1 cc) (filter (fun x => negb (mem N.eqb x el)) s)) =
                  map (conv1 cc) (filter (fun x => negb (mem N.eqb x (nodup N.eq_dec (el ++ before cc e)))) s)).
      { induction s as [|x s IHs]; [reflexivity|]. cbn [filter]. destruct (mem N.eqb x el) eqn:E1.
        - assert (E : mem N.eqb x (nodup N.eq_dec (el ++ before cc e)) = true).
          { apply (mem_In N.eqb N.eqb_eq) in E1. apply (mem_In N.eqb N.eqb_eq), nodup_In, in_app_iff. left. exact E1. }
          rewrite E. cbn [negb]. exact IHs.
        - cbn [negb map filter]. apply (mem_false N.eqb N.eqb_eq) in E1. destruct (mem N.eqb (conv1 cc x) e) eqn:E2.
          + assert (E : mem N.eqb x (nodup N.eq_dec (el ++ before cc e)) = true).
            { apply (mem_In N.eqb N.eqb_eq) in E2. apply (mem_In N.eqb N.eqb_eq), nodup_In, in_app_iff. right. apply before_In, E2. }
            rewrite E. cbn [negb]. exact IHs.
          + assert (E : mem N.eqb x (nodup N.eq_dec (el ++ before cc e)) = false).
            { apply (mem_false N.eqb N.eqb_eq) in E2. apply (mem_false N.eqb N.eqb_eq). rewrite nodup_In, in_app_iff, before_In. tauto. }
            rewrite E. cbn [negb map]. rewrite IHs. reflexivity. }
      intros s out. rewrite result_app. split.
      * intros (mid & A & B). apply R in A. apply (does_elim e) in B. subst. apply K.
      * intros ->. eexists. split; [apply R; reflexivity|]. apply (does_elim e). symmetry. apply K.
Qed.
(** A pipeline of conversions and eliminations acts like one elimination followed by one conversion. *)
Theorem C83_normal_form : forall c, Forall conversion_or_elimination c -> exists el cc, NoDup el /\ NoDup (map fst cc) /\
  forall s out, result c s out <-> result [MElim el; MConv cc] s out.
Proof.
  intros c F. destruct (normal_form c F) as (el & cc & N1 & N2 & R). exists el, cc. split; [exact N1|]. split; [exact N2|]. intros s out.
  rewrite R, (does_two _ _ _ _ (does_elim el) (does_conv cc)). tauto.
Qed.
Print Assumptions C83_normal_form.
(** Conversions alone: one conversion, taking each character through all tables in turn. *)
Fixpoint through (ccs : list converter) (c d : char) : Prop :=
  match ccs with
  | [] => d = c
  | cc :: r => exists x, (In (c, x) cc \/ (x = c /\ forall t, ~ In (c, t) cc)) /\ through r x d
  end.
Lemma conv1_step cc c x : NoDup (map fst cc) -> (In (c, x) cc \/ (x = c /\ forall t, ~ In (c, t) cc)) <-> x = conv1 cc c.
Proof.
  intros N. unfold conv1, conv_get. destruct (hm_get N.eqb c cc) as [t|] eqn:G.
  - apply (hm_get_In N.eqb N.eqb_eq) in G. split.
    + intros [I|[_ K]]; [|destruct (K t G)]. apply (hm_In_get N.eqb N.eqb_eq c x cc N) in I. apply (hm_In_get N.eqb N.eqb_eq c t cc N) in G. congruence.
    + intros ->. left. exact G.
  - apply (hm_get_None N.eqb N.eqb_eq) in G. split; [intros [I|[E _]]; [destruct G; apply (in_map fst) in I; exact I|exact E]|].
    intros ->. right. split; [reflexivity|]. intros t I. apply G. apply (in_map fst) in I. exact I.
Qed.
Lemma through_spec ccs : Forall (fun cc => NoDup (map fst cc)) ccs -> forall c d, through ccs c d <-> result (map MConv ccs) [c] [d].
Proof.
  induction 1 as [|cc ccs N _ IH]; intros c d; cbn [through map].
  - rewrite result_nil. split; [intros ->; reflexivity|intros E; injection E as ->; reflexivity].
  - change (MConv cc :: map MConv ccs) with ([MConv cc] ++ map MConv ccs). rewrite result_app. split.
    + intros (x & A & B). apply (conv1_step cc c x N) in A. subst x. exists [conv1 cc c]. split; [apply (does_conv cc [c]); reflexivity|apply IH, B].
    + intros (mid & A & B). apply (does_conv cc [c]) in A. subst mid. exists (conv1 cc c). split; [apply (conv1_step cc c _ N); reflexivity|apply IH, B].
Qed.
Theorem C83_conversions : forall ccs, Forall (fun cc => NoDup (map fst cc)) ccs -> exists cc, NoDup (map fst cc) /\
  (forall s out, result (map MConv ccs) s out <-> result [MConv cc] s out) /\
  forall c d, result [MConv cc] [c] [d] <-> through ccs c d.
Proof.
  intros ccs F. assert (E : exists cc, NoDup (map fst cc) /\ forall s out, result (map MConv ccs) s out <-> result [MConv cc] s out).
  { clear F. induction ccs as [|d ccs IH] using rev_ind.
    - exists []. split; [constructor|]. intros s out. cbn [map]. rewrite result_nil, (does_conv [] s out), (map_ext (conv1 []) (fun x => x)), map_id by reflexivity. tauto.
    - destruct IH as (cc & N & R). exists (composed cc d). split.
      { unfold composed. rewrite map_map, map_id. apply NoDup_nodup. }
      intros s out. rewrite map_app. cbn [map]. rewrite result_app, (does_conv (composed cc d) s out). split.
      + intros (mid & A & B). apply R, (does_conv cc) in A. apply (does_conv d) in B. subst. rewrite map_map. apply map_ext. intros x. rewrite composed_get. reflexivity.
      + intros ->. exists (map (conv1 cc) s). split; [apply R, (does_conv cc); reflexivity|]. apply (does_conv d). rewrite map_map. apply map_ext. intros x. apply composed_get. }
  destruct E as (cc & N & R). exists cc. split; [exact N|]. split; [exact R|]. intros c d. rewrite <- R. symmetry. apply through_spec, F.
Qed.
Print Assumptions C83_conversions.
Theorem C83_eliminations : forall els, exists el, NoDup el /\ (forall x, In x el <-> exists e, In e els /\ In x e) /\
  forall s out, result (map MElim els) s out <-> result [MElim el] s out.
Proof.
  induction els as [|e els (el & N & I & R)] using rev_ind.
  - exists []. split; [constructor|]. split; [intros x; split; [intros []|intros (e & [] & _)]|]. intros s out. cbn [map].
    rewrite result_nil, (does_elim [] s out), filter_all by reflexivity. tauto.
  - exists (nodup N.eq_dec (el ++ e)). split; [apply NoDup_nodup|]. split.
    + intros x. rewrite nodup_In, in_app_iff, I. split.
      * intros [(e' & A & B)|B]; [exists e'|exists e]; (split; [apply in_app_iff; cbn; tauto|exact B]).
      * intros (e' & A & B). apply in_app_iff in A as [A|[<-|[]]]; [left; exists e'; auto|right; exact B].
    + intros s out. rewrite map_app. cbn [map]. rewrite result_app, (does_elim (nodup N.eq_dec (el ++ e)) s out).
      assert (K : forall s, filter (fun c => negb (mem N.eqb c e)) (filter (fun c => negb (mem N.eqb c el)) s) = filter (fun c => negb (mem N.eqb c (nodup N.eq_dec (el ++ e)))) s).
      { clear. induction s as [|x s IH]; [reflexivity|]. cbn [filter].
        assert (E : mem N.eqb x (nodup N.eq_dec (el ++ e)) = (mem N.eqb x el || mem N.eqb x e)%bool).
        { apply eq_true_iff_eq. rewrite orb_true_iff, !(mem_In N.eqb N.eqb_eq), nodup_In, in_app_iff. tauto. }
        rewrite E. destruct (mem N.eqb x el); cbn [negb orb filter]; [exact IH|]. destruct (mem N.eqb x e); cbn [negb]; rewrite IH; reflexivity. }
      split.
      * intros (mid & A & B). apply R, (does_elim el) in A. apply (does_elim e) in B. subst. apply K.
      * intros ->. eexists. split; [apply R, (does_elim el); reflexivity|]. apply (does_elim e). symmetry. apply K.
Qed.
Print Assumptions C83_eliminations.
(** Two such pipelines act alike exactly if they do so on the texts of one character. *)
Theorem C83_single_characters_decide : forall c c', Forall conversion_or_elimination c -> Forall conversion_or_elimination c' ->
  ((forall s out, valid_str s -> (result c s out <-> result c' s out)) <->
   (forall x out, is_scalar x = true -> (result c [x] out <-> result c' [x] out))).
Proof.
  intros c c' F F'. split; [intros H x out V; apply H; repeat constructor; exact V|]. intros H s out V.
  destruct (normal_form c F) as (el & cc & _ & _ & R). destruct (normal_form c' F') as (el' & cc' & _ & _ & R'). rewrite R, R'.
  assert (E : map (conv1 cc) (filter (fun x => negb (mem N.eqb x el)) s) = map (conv1 cc') (filter (fun x => negb (mem N.eqb x el')) s)).
  { induction V as [|x s Vx V IH]; [reflexivity|]. change (x :: s) with ([x] ++ s). rewrite !filter_app, !map_app. f_equal; [|exact IH].
    apply R', (H x _ Vx), R. reflexivity. }
  rewrite E. tauto.
Qed.
Print Assumptions C83_single_characters_decide.
(** The configuration "a -> b; delete b, x; c -> a" deletes a, b and x and turns c into a; run reduction does not fit in: it is not decided by
    single characters. *)
Example C83_case :
  let c := [MConv [(0x61, 0x62)]; MElim [0x62; 0x78]; MConv [(0x63, 0x61)]]%N in
  Forall conversion_or_elimination c /\
  (forall s out, result c s out <-> result [MElim [0x62; 0x78; 0x61]; MConv [(0x63, 0x61)]]%N s out) /\
  (forall x out, result [MRed 0x61%N] [x] out <-> result [] [x] out) /\ ~ (forall s out, result [MRed 0x61%N] s out <-> result [] s out).
Proof.
  split; [repeat constructor|]. split; [|split].
  - intros s out. change [MConv [(0x61, 0x62)]; MElim [0x62; 0x78]; MConv [(0x63, 0x61)]]%N with ([MConv [(0x61, 0x62)]; MElim [0x62; 0x78]] ++ [MConv [(0x63, 0x61)]])%N.
    change [MElim [0x62; 0x78; 0x61]; MConv [(0x63, 0x61)]]%N with ([MElim [0x62; 0x78; 0x61]] ++ [MConv [(0x63, 0x61)]])%N. rewrite !result_app.
    assert (E : forall mid, result [MConv [(0x61, 0x62)]; MElim [0x62; 0x78]]%N s mid <-> result [MElim [0x62; 0x78; 0x61]]%N s mid).
    { intros mid. rewrite (does_two _ _ _ _ (does_conv _) (does_elim _)), (does_elim _ s mid).
      assert (F : filter (fun c => negb (mem N.eqb c [0x62; 0x78]))%N (map (conv1 [(0x61, 0x62)]%N) s) = filter (fun c => negb (mem N.eqb c [0x62; 0x78; 0x61]))%N s).
      { induction s as [|x s IH]; [reflexivity|]. cbn [map filter]. rewrite IH. unfold conv1, conv_get. cbn [hm_get].
        destruct (N.eqb_spec x 0x61) as [->|D]; [reflexivity|]. cbn [mem existsb]. rewrite (proj2 (N.eqb_neq x 0x61) D). rewrite !orb_false_r. reflexivity. }
      rewrite F. tauto. }
    split; intros (mid & A & B); exists mid; (split; [apply E, A|exact B]).
  - intros x out. rewrite (does_red _ [x] out), result_nil. cbn [red_rec]. destruct (N.eqb 0x61 x); tauto.
  - intros H. pose proof (proj2 (H (lit "aa") (lit "aa")) (proj2 (result_nil _ _) eq_refl)) as R. apply (does_red _ (lit "aa")) in R. discriminate R.
Qed.
