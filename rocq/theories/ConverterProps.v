(** Lemmas behind properties C01-C06, C55. *)
From Verif Require Import Base BaseFacts Utf8 StrOps Corr Position Table Converter ConverterFacts
  TableFacts SimpleFacts ModifierKind ChanomaModel Spec.

Definition key_rel (cc : converter) (c t : char) : Prop := In (c, t) cc.

Lemma normalize_conv dbg o cc s : normalize dbg o [MConv cc] s = Ok (map (conv1 cc) s).
Proof.
  unfold normalize, normalize_with_positions. destruct dbg; cbn [negb normalize_fold normalize_records modify modify_with_positions].
  - destruct (conv_positions_eq (sub o 0) cc s) as (ps & E & _). rewrite E. reflexivity.
  - rewrite conv_modify_eq. reflexivity.
Qed.

Lemma conv1_pointwise (R : char -> char -> Prop) cc s :
  (forall c t, R c t <-> conv_get cc c = Some t) -> pointwise R s (map (conv1 cc) s).
Proof.
  intros H. apply pointwise_map. intros c _. unfold conv1. destruct (conv_get cc c) as [t|] eqn:E.
  - left. apply H. exact E.
  - right. split; [reflexivity|]. intros t Ht. apply H in Ht. congruence.
Qed.

Lemma table_rel ts cc c t : from_tables ts = Ok cc ->
  (last_match (tables_items ts) c t <-> conv_get cc c = Some t).
Proof.
  intros H. pose proof (conv_get_from_tables ts cc c H) as G. split.
  - intros L. destruct (conv_get cc c) as [t'|].
    + f_equal. eapply last_match_unique; eassumption.
    + destruct (last_match_not_none _ _ _ L G).
  - intros E. rewrite E in G. exact G.
Qed.

Lemma chanoma_from_table_inv t c : chanoma_from_table t = Ok c ->
  exists cc, from_tables [t] = Ok cc /\ c = [MConv cc].
Proof.
  unfold chanoma_from_table. destruct (from_tables [t]) as [cc| |]; cbn [bind]; intros H; inversion H.
  exists cc. auto.
Qed.
Lemma tables_items_one t : tables_items [t] = t_corr t.
Proof. unfold tables_items. simpl. apply app_nil_r. Qed.

Lemma C01_table dbg o t c s :
  chanoma_from_table t = Ok c ->
  exists out, normalize dbg o c s = Ok out /\ pointwise (last_match (table_items t)) s out.
Proof.
  intros H. destruct (chanoma_from_table_inv t c H) as (cc & Hc & ->).
  exists (map (conv1 cc) s). split; [apply normalize_conv|].
  apply conv1_pointwise. intros x y. rewrite <- (table_rel [t] cc x y Hc), tables_items_one. reflexivity.
Qed.
Lemma C01_map dbg o cc s :
  NoDup (map fst cc) ->
  exists out, normalize dbg o [MConv cc] s = Ok out /\ pointwise (fun c t => In (c, t) cc) s out.
Proof.
  intros H. exists (map (conv1 cc) s). split; [apply normalize_conv|].
  apply conv1_pointwise. intros x y. symmetry. apply conv_get_iff. exact H.
Qed.
Lemma C01_order dbg dbg' o o' cc s : normalize dbg o [MConv cc] s = normalize dbg' o' [MConv cc] s.
Proof. rewrite !normalize_conv. reflexivity. Qed.

(** ** Lengths of encodings *)
Lemma encode_char_length c : length (encode_char c) = len_utf8 c.
Proof. unfold encode_char, len_utf8. repeat destruct (N.ltb _ _); reflexivity. Qed.
Lemma encode_length s : length (encode s) = blen s.
Proof.
  unfold encode, blen. induction s as [|c s IH]; simpl; [reflexivity|].
  rewrite app_length, encode_char_length, IH. reflexivity.
Qed.
Lemma encode_app a b : encode (a ++ b) = encode a ++ encode b.
Proof. apply flat_map_app. Qed.

(** ** Positions *)
Lemma spec_positions_from_In cc s k b p :
  In p (flat_map (fun x : nat * (nat * char) =>
              match conv_get cc (snd (snd x)) with
              | Some t => [pos_for (snd (snd x)) t (fst x, fst (snd x))]
              | None => []
              end) (enumerate_from k (char_indices_from b s))) <->
  exists i c t, nth_error s i = Some c /\ conv_get cc c = Some t /\
     p = Pos [c] [t] (k + i) (len_utf8 c) (b + blen (firstn i s)) 1.
Proof.
  revert k b; induction s as [|x s IH]; intros k b; cbn [char_indices_from enumerate_from flat_map].
  - split; [intros []|]. intros (i & c & t & H & _). destruct i; discriminate.
  - rewrite in_app_iff, IH. cbn [fst snd]. split.
    + intros [H|(i & c & t & H1 & H2 & ->)].
      * destruct (conv_get cc x) as [t|] eqn:E; [|destruct H]. destruct H as [<-|[]].
        exists 0, x, t. cbn. rewrite !Nat.add_0_r. auto.
      * exists (S i), c, t. cbn [nth_error firstn blen fold_right].
        split; [exact H1|]. split; [exact H2|]. unfold blen. f_equal; lia.
    + intros (i & c & t & H1 & H2 & ->). destruct i as [|i].
      * left. cbn in H1. inversion H1; subst c. rewrite H2. left. unfold pos_for. cbn. rewrite !Nat.add_0_r. reflexivity.
      * right. exists i, c, t. cbn [nth_error] in H1. split; [exact H1|]. split; [exact H2|].
        cbn [firstn]. unfold blen. cbn [fold_right]. f_equal; lia.
Qed.
Lemma spec_positions_In cc s p :
  In p (spec_positions cc s) <-> substitution_entry (fun c t => conv_get cc c = Some t) s p.
Proof.
  unfold spec_positions, enumerate, char_indices. rewrite spec_positions_from_In.
  unfold substitution_entry. split.
  - intros (i & c & t & H1 & H2 & ->). exists i, c, t. cbn [p_from p_to p_index p_utf8_index p_length p_utf8_length].
    rewrite !encode_length. cbn [Nat.add]. split; [exact H1|]. split; [exact H2|].
    repeat split. unfold blen. simpl. lia.
  - intros (i & c & t & H1 & H2 & A & B & C & D & E & F). exists i, c, t.
    split; [exact H1|]. split; [exact H2|]. destruct p as [f t' ix ln u ul]. cbn in *. subst.
    rewrite encode_length, app_nil_r, encode_char_length. reflexivity.
Qed.
Lemma spec_positions_from_index cc s k b :
  NoDup (map p_index (flat_map (fun x : nat * (nat * char) =>
              match conv_get cc (snd (snd x)) with
              | Some t => [pos_for (snd (snd x)) t (fst x, fst (snd x))]
              | None => []
              end) (enumerate_from k (char_indices_from b s)))).
Proof.
  revert k b; induction s as [|x s IH]; intros k b; cbn [char_indices_from enumerate_from flat_map]; [constructor|].
  cbn [fst snd]. destruct (conv_get cc x) as [t|] eqn:E; cbn [app]; [|apply IH].
  cbn [map]. constructor; [|apply IH].
  intros H. apply in_map_iff in H. destruct H as (p & Hp & Hin).
  apply spec_positions_from_In in Hin. destruct Hin as (i & c & t' & _ & _ & ->).
  cbn in Hp. lia.
Qed.
Lemma NoDup_map_inv' {A B} (f : A -> B) l : NoDup (map f l) -> NoDup l.
Proof. apply NoDup_map_inv. Qed.

Lemma exact_positions_conv cc s ps : Permutation ps (spec_positions cc s) ->
  exact_positions (fun c t => conv_get cc c = Some t) s ps.
Proof.
  intros H. split.
  - apply Permutation_NoDup with (spec_positions cc s); [symmetry; exact H|].
    apply NoDup_map_inv' with (f := p_index). apply spec_positions_from_index.
  - intros p. rewrite <- spec_positions_In. split; apply Permutation_in; [exact H|symmetry; exact H].
Qed.
Lemma exact_positions_iff (R R' : char -> char -> Prop) s ps :
  (forall c t, R c t <-> R' c t) -> exact_positions R s ps -> exact_positions R' s ps.
Proof.
  intros H [H1 H2]. split; [exact H1|]. intros p. rewrite H2. unfold substitution_entry.
  split; intros (i & c & t & A & B & C); exists i, c, t; (split; [exact A|]); (split; [apply H; exact B|exact C]).
Qed.

Lemma normalize_with_positions_conv o cc s :
  exists ps, normalize_with_positions o [MConv cc] s = Ok [Record (MConv cc) (map (conv1 cc) s) ps] /\
    Permutation ps (spec_positions cc s).
Proof.
  unfold normalize_with_positions. cbn [normalize_records modify_with_positions].
  destruct (conv_positions_eq (sub o 0) cc s) as (ps & E & P). rewrite E. exists ps. split; [reflexivity|exact P].
Qed.

Lemma C02_table o t c s :
  chanoma_from_table t = Ok c ->
  exists out ps m, normalize_with_positions o c s = Ok [Record m out ps] /\
    (forall dbg o', normalize dbg o' c s = Ok out) /\ exact_positions (last_match (table_items t)) s ps.
Proof.
  intros H. destruct (chanoma_from_table_inv t c H) as (cc & Hc & ->).
  destruct (normalize_with_positions_conv o cc s) as (ps & E & P).
  exists (map (conv1 cc) s), ps, (MConv cc). split; [exact E|]. split; [intros; apply normalize_conv|].
  apply exact_positions_iff with (fun c t => conv_get cc c = Some t); [|apply exact_positions_conv, P].
  intros x y. rewrite <- (table_rel [t] cc x y Hc), tables_items_one. reflexivity.
Qed.
Lemma C02_map o cc s :
  NoDup (map fst cc) ->
  exists out ps, normalize_with_positions o [MConv cc] s = Ok [Record (MConv cc) out ps] /\
    (forall dbg o', normalize dbg o' [MConv cc] s = Ok out) /\ exact_positions (fun c t => In (c, t) cc) s ps.
Proof.
  intros H. destruct (normalize_with_positions_conv o cc s) as (ps & E & P).
  exists (map (conv1 cc) s), ps. split; [exact E|]. split; [intros; apply normalize_conv|].
  apply exact_positions_iff with (fun c t => conv_get cc c = Some t); [|apply exact_positions_conv, P].
  intros x y. apply conv_get_iff. exact H.
Qed.

(** ** Replay *)
Lemma apply_entry_nth s p t : p_index p < length s -> p_to p = [t] ->
  length (apply_entry s p) = length s /\
  forall j, nth_error (apply_entry s p) j = if Nat.eqb j (p_index p) then Some t else nth_error s j.
Proof.
  intros Hl Ht. unfold apply_entry. rewrite Ht.
  assert (L : length (firstn (p_index p) s) = p_index p) by (rewrite firstn_length; lia).
  split.
  - rewrite !app_length, L, skipn_length. simpl. lia.
  - intros j. destruct (Nat.eqb_spec j (p_index p)) as [->|Hn].
    + rewrite nth_error_app2 by lia. rewrite L, Nat.sub_diag. reflexivity.
    + destruct (Nat.lt_ge_cases j (p_index p)) as [H|H].
      * rewrite nth_error_app1 by lia. rewrite <- (firstn_skipn (p_index p) s) at 2.
        rewrite nth_error_app1 by lia. reflexivity.
      * rewrite nth_error_app2 by lia. rewrite L.
        replace (j - p_index p) with (S (j - p_index p - 1)) by lia. cbn [app nth_error].
        rewrite <- (firstn_skipn (p_index p + 1) s) at 2.
        rewrite nth_error_app2 by (rewrite firstn_length; lia).
        rewrite firstn_length. f_equal. lia.
Qed.

Lemma replay_nth ps s0 :
  (forall p, In p ps -> p_index p < length s0 /\ exists t, p_to p = [t]) ->
  NoDup (map p_index ps) ->
  length (fold_left apply_entry ps s0) = length s0 /\
  forall j, nth_error (fold_left apply_entry ps s0) j =
     match find (fun p => Nat.eqb j (p_index p)) ps with
     | Some p => hd_error (p_to p)
     | None => nth_error s0 j
     end.
Proof.
  revert s0; induction ps as [|p ps IH]; intros s0 H Hn; cbn [fold_left find]; [auto|].
  destruct (H p (or_introl eq_refl)) as [Hi (t & Ht)].
  destruct (apply_entry_nth s0 p t Hi Ht) as [L E].
  cbn [map] in Hn. inversion Hn as [|? ? Hni Hnd]; subst.
  destruct (IH (apply_entry s0 p)) as [L' E'].
  { intros q Hq. rewrite L. apply H. right; exact Hq. } { exact Hnd. }
  split; [lia|]. intros j. rewrite E'. destruct (Nat.eqb_spec j (p_index p)) as [->|Hne].
  - destruct (find _ ps) as [q|] eqn:Ef.
    + apply find_some in Ef. destruct Ef as [Hq Eq]. apply Nat.eqb_eq in Eq.
      exfalso. apply Hni. rewrite Eq. apply in_map. exact Hq.
    + rewrite E, Nat.eqb_refl, Ht. reflexivity.
  - destruct (find _ ps) as [q|]; [reflexivity|].
    rewrite E. destruct (Nat.eqb_spec j (p_index p)); [contradiction|reflexivity].
Qed.

Lemma replay_conv cc s ps : Permutation ps (spec_positions cc s) ->
  fold_left apply_entry ps s = map (conv1 cc) s.
Proof.
  intros P.
  assert (HN : NoDup (map p_index ps)).
  { apply Permutation_NoDup with (map p_index (spec_positions cc s)).
    - apply Permutation_map. symmetry. exact P.
    - apply spec_positions_from_index. }
  assert (HI : forall p, In p ps <-> substitution_entry (fun c t => conv_get cc c = Some t) s p).
  { intros p. rewrite <- spec_positions_In. split; apply Permutation_in; [exact P|symmetry; exact P]. }
  destruct (replay_nth ps s) as [L E].
  { intros p Hp. apply HI in Hp. destruct Hp as (i & c & t & H1 & H2 & _ & Ht & Hi & _).
    split; [rewrite Hi; apply nth_error_Some; congruence|exists t; exact Ht]. }
  { exact HN. }
  apply list_nth_ext.
  - rewrite L, map_length. reflexivity.
  - intros j x Hx. rewrite E in Hx. rewrite nth_error_map.
    destruct (find _ ps) as [p|] eqn:Ef.
    + apply find_some in Ef. destruct Ef as [Hp Ej]. apply Nat.eqb_eq in Ej.
      apply HI in Hp. destruct Hp as (i & c & t & H1 & H2 & _ & Ht & Hi & _).
      rewrite Ht in Hx. cbn in Hx. inversion Hx; subst x. rewrite <- Hi, <- Ej in H1. rewrite H1.
      cbn. unfold conv1. rewrite H2. reflexivity.
    + rewrite Hx. cbn. f_equal. unfold conv1. destruct (conv_get cc x) as [t|] eqn:Ec; [|reflexivity].
      exfalso. pose (p := Pos [x] [t] j (length (encode [x])) (length (encode (firstn j s))) 1).
      assert (Hp : In p ps). { apply HI. exists j, x, t. repeat split; auto. }
      pose proof (find_none _ _ Ef p Hp) as Hf. cbn in Hf. rewrite Nat.eqb_refl in Hf. discriminate.
Qed.

Lemma cut_app_exact {A} (a b c : list A) : cut (length a) (length b) (a ++ b ++ c) = b.
Proof.
  unfold cut. rewrite skipn_app, skipn_all, Nat.sub_diag. simpl.
  rewrite firstn_app, firstn_all, Nat.sub_diag. simpl. apply app_nil_r.
Qed.
Lemma substitution_entry_cut (R : char -> char -> Prop) s p : substitution_entry R s p ->
  cut (p_utf8_index p) (p_length p) (encode s) = encode (p_from p).
Proof.
  intros (i & c & t & H1 & _ & Hf & _ & Hi & Hu & Hl & _).
  rewrite Hf, Hu, Hl. rewrite <- (firstn_skipn i s) at 2.
  assert (Hs : skipn i s = [c] ++ skipn (S i) s).
  { clear - H1. revert s H1; induction i as [|i IH]; intros [|x s] H; cbn in *; try discriminate.
    - inversion H. reflexivity.
    - apply IH. exact H. }
  rewrite Hs, !encode_app. apply cut_app_exact.
Qed.

Lemma C03_replay o t c s m out ps ps' :
  chanoma_from_table t = Ok c ->
  normalize_with_positions o c s = Ok [Record m out ps] ->
  Permutation ps' ps ->
  fold_left apply_entry ps' s = out /\
  forall p, In p ps -> cut (p_utf8_index p) (p_length p) (encode s) = encode (p_from p) /\
                       cut (p_index p) (p_utf8_length p) s = p_from p.
Proof.
  intros H E P. destruct (chanoma_from_table_inv t c H) as (cc & Hc & ->).
  destruct (normalize_with_positions_conv o cc s) as (q & E' & P'). rewrite E' in E. inversion E; subst out ps m.
  split.
  - apply replay_conv. etransitivity; [exact P|exact P'].
  - intros p Hp. assert (Hs : substitution_entry (fun c t => conv_get cc c = Some t) s p).
    { apply spec_positions_In. eapply Permutation_in; [exact P'|exact Hp]. }
    split; [eapply substitution_entry_cut; exact Hs|].
    destruct Hs as (i & x & y & H1 & _ & Hf & _ & Hi & _ & _ & Hl). rewrite Hf, Hi, Hl.
    destruct (nth_error_split _ _ H1) as (a & b & -> & <-). apply (cut_app_exact a [x] b).
Qed.

(** ** Construction *)
Lemma C05_iff ts : (from_tables ts = Panic <-> exists t it, In t ts /\ In it (table_items t) /\ (from it = [] \/ to it = [])) /\
  (from_tables ts <> Panic -> exists cc, from_tables ts = Ok cc).
Proof.
  rewrite from_tables_eq. destruct (forallb nonempty_item (tables_items ts)) eqn:E.
  - split; [|intros _; eexists; reflexivity]. split; [discriminate|].
    intros (t & it & Ht & Hi & He). rewrite forallb_forall in E.
    assert (G : nonempty_item it = true).
    { apply E. unfold tables_items. apply in_concat. exists (t_corr t). split; [apply in_map; exact Ht|exact Hi]. }
    apply nonempty_item_true in G. tauto.
  - split; [|tauto]. split; [|reflexivity]. intros _.
    assert (G : exists it, In it (tables_items ts) /\ nonempty_item it = false).
    { clear -E. induction (tables_items ts) as [|x l IH]; [discriminate|]. cbn in E.
      destruct (nonempty_item x) eqn:Ex.
      - destruct (IH E) as (it & Hi & He). exists it. split; [right; exact Hi|exact He].
      - exists x. split; [left; reflexivity|exact Ex]. }
    destruct G as (it & Hi & He). unfold tables_items in Hi. apply in_concat in Hi.
    destruct Hi as (l & Hl & Hi). apply in_map_iff in Hl. destruct Hl as (t & <- & Ht).
    exists t, it. split; [exact Ht|]. split; [exact Hi|].
    unfold nonempty_item in He. destruct (from it); [left; reflexivity|]. destruct (to it); [right; reflexivity|discriminate].
Qed.
Lemma chanoma_from_table_panic t : chanoma_from_table t = Panic <-> from_tables [t] = Panic.
Proof. unfold chanoma_from_table. destruct (from_tables [t]); cbn; split; intros H; (discriminate || reflexivity). Qed.

(** ** Idempotence *)
Lemma conv1_idem cc : (forall c, conv1 cc (conv1 cc c) = conv1 cc c) <->
  (forall a b b', conv_get cc a = Some b -> conv_get cc b = Some b' -> b' = b).
Proof.
  split.
  - intros H a b b' Ha Hb. specialize (H a). unfold conv1 in H. rewrite Ha, Hb in H. exact H.
  - intros H c. unfold conv1. destruct (conv_get cc c) as [b|] eqn:E; [|rewrite E; reflexivity].
    destruct (conv_get cc b) as [b'|] eqn:E'; [|reflexivity]. eapply H; eassumption.
Qed.
Lemma C06_iff t c :
  chanoma_from_table t = Ok c ->
  ((forall dbg o dbg' o' s out, normalize dbg o c s = Ok out -> normalize dbg' o' c out = Ok out)
   <-> (forall x y z, last_match (table_items t) x y -> last_match (table_items t) y z -> z = y)).
Proof.
  intros H. destruct (chanoma_from_table_inv t c H) as (cc & Hc & ->).
  assert (R : forall x y, last_match (table_items t) x y <-> conv_get cc x = Some y).
  { intros x y. rewrite <- (table_rel [t] cc x y Hc), tables_items_one. reflexivity. }
  split.
  - intros Hi x y z Hx Hy. apply R in Hx, Hy.
    specialize (Hi false (fun _ => []) false (fun _ => []) [x] _ (normalize_conv _ _ _ _)).
    rewrite normalize_conv in Hi. cbn in Hi. unfold conv1 in Hi. rewrite Hx, Hy in Hi. inversion Hi. reflexivity.
  - intros Hr dbg o dbg' o' s out Ho. rewrite normalize_conv in Ho. inversion Ho; subst out.
    rewrite normalize_conv. f_equal. rewrite map_map. apply map_ext. apply conv1_idem.
    intros a b b' Ha Hb. apply R in Ha, Hb. eapply Hr; eassumption.
Qed.

Lemma C04_last ts cc s dbg o : from_tables ts = Ok cc ->
  exists out, normalize dbg o [MConv cc] s = Ok out /\ pointwise (last_match (tables_items ts)) s out.
Proof.
  intros H. exists (map (conv1 cc) s). split; [apply normalize_conv|].
  apply conv1_pointwise. intros x y. apply table_rel. exact H.
Qed.
