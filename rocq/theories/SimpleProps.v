(** Lemmas behind properties C10-C19. *)
From Verif Require Import Base BaseFacts Utf8 StrOps Position Eliminator Reducer Dotted TrimMod
  ModifierKind ChanomaModel Spec ConverterFacts SimpleFacts ConverterProps.

(** ** One-modifier pipelines *)
Lemma normalize_elim dbg o x s : normalize dbg o [MElim x] s = Ok (elim_modify x s).
Proof. destruct dbg; reflexivity. Qed.
Lemma normalize_red dbg o x s : normalize dbg o [MRed x] s = Ok (red_modify x s).
Proof.
  destruct dbg; [|reflexivity].
  unfold normalize, normalize_with_positions. cbn [negb normalize_records modify_with_positions].
  rewrite red_positions_eq. reflexivity.
Qed.
Lemma normalize_dot dbg o s : normalize dbg o [MDot] s = Ok (dot_modify s).
Proof. destruct dbg; reflexivity. Qed.

(** ** Trim positions *)
Lemma trim_start_fix c s : hd_error s <> Some c -> trim_start_matches c s = s.
Proof.
  destruct s as [|x s]; [reflexivity|]. simpl. destruct (N.eqb_spec x c) as [->|]; [congruence|reflexivity].
Qed.
Lemma trim_start_repeat c n s : hd_error s <> Some c -> trim_start_matches c (repeat c n ++ s) = s.
Proof.
  intros H. induction n as [|n IH]; [apply trim_start_fix; exact H|].
  cbn [repeat app trim_start_matches]. rewrite N.eqb_refl. exact IH.
Qed.
Lemma trim_end_repeat c n s : hd_error (rev s) <> Some c -> trim_end_matches c (s ++ repeat c n) = s.
Proof.
  intros H. unfold trim_end_matches. rewrite rev_app_distr, rev_repeat, trim_start_repeat by exact H.
  apply rev_involutive.
Qed.
Lemma blen_spaces n : blen (repeat SPACE n) = n.
Proof. rewrite blen_repeat. change (len_utf8 SPACE) with 1. lia. Qed.
Lemma app_neq_l {A} (a b : list A) : a <> [] -> b <> a ++ b.
Proof.
  intros H E. apply (f_equal (@length _)) in E. rewrite app_length in E. destruct a; [congruence|simpl in E; lia].
Qed.

Lemma trim_parts_exists s : exists a out b, trim_parts s a out b.
Proof.
  destruct (trim_modify_trimmed s) as (H1 & H2 & a & b & E).
  destruct (trim_modify s) as [|x r] eqn:Er.
  - exists (a + b), [], 0. repeat split; try assumption. rewrite E. cbn. rewrite repeat_app, app_nil_r. reflexivity.
  - exists a, (x :: r), b. repeat split; auto. discriminate.
Qed.

Lemma str_eqb_false a b : a <> b -> str_eqb a b = false.
Proof. intros H. destruct (str_eqb a b) eqn:E; [apply str_eqb_eq in E; contradiction|reflexivity]. Qed.

Lemma trim_parts_eq s a out b : trim_parts s a out b ->
  trim_modify s = out /\ trim_modify_with_positions s = Ok (out, trim_positions a out b).
Proof.
  intros (E & H1 & H2 & H3).
  assert (Hh : hd_error (out ++ repeat space b) <> Some space).
  { destruct out as [|x r]; [rewrite (H3 eq_refl); discriminate|exact H1]. }
  assert (Et : trim_start_matches SPACE s = out ++ repeat space b).
  { rewrite E. apply trim_start_repeat. exact Hh. }
  assert (Ee : trim_end_matches SPACE (out ++ repeat space b) = out).
  { apply trim_end_repeat. exact H2. }
  split; [unfold trim_modify, trim_matches; rewrite Et; exact Ee|].
  unfold trim_modify_with_positions. rewrite Et, Ee.
  unfold trim_positions.
  assert (L1 : blen s = a + blen (out ++ repeat space b)).
  { rewrite E, blen_app. change space with SPACE. rewrite blen_spaces. reflexivity. }
  assert (L2 : blen (out ++ repeat space b) = blen out + b).
  { rewrite blen_app. change space with SPACE. rewrite blen_spaces. reflexivity. }
  assert (L3 : length s = a + length out + b).
  { rewrite E, !app_length, !repeat_length. lia. }
  assert (P1 : (if str_eqb (out ++ repeat space b) s then Ok []
          else len <- checked_sub (blen s) (blen (out ++ repeat space b)) ;;
               Ok [{| p_from := repeat SPACE len; p_to := []; p_index := 0; p_length := len;
                      p_utf8_index := 0; p_utf8_length := len |}]) =
          Ok (if Nat.eqb a 0 then [] else [Pos (repeat space a) [] 0 a 0 a])).
  { destruct (Nat.eqb_spec a 0) as [->|Ha].
    - rewrite E at 1. cbn [repeat app]. rewrite str_eqb_refl. reflexivity.
    - rewrite str_eqb_false.
      + unfold checked_sub. replace (Nat.leb _ _) with true by (symmetry; apply Nat.leb_le; lia).
        cbn [bind]. replace (blen s - blen (out ++ repeat space b)) with a by lia. reflexivity.
      + rewrite E. apply app_neq_l. destruct a; [lia|discriminate]. }
  rewrite P1. cbn [bind].
  assert (P2 : str_eqb out (out ++ repeat space b) = Nat.eqb b 0).
  { destruct (Nat.eqb_spec b 0) as [->|Hb].
    - cbn. rewrite app_nil_r. apply str_eqb_refl.
    - apply str_eqb_false. intros Eq. apply (f_equal (@length _)) in Eq. rewrite app_length, repeat_length in Eq. lia. }
  rewrite P2. destruct (Nat.eqb b 0); cbn [bind]; [reflexivity|].
  unfold checked_sub. replace (Nat.leb (blen out) _) with true by (symmetry; apply Nat.leb_le; lia). cbn [bind].
  replace (blen (out ++ repeat space b) - blen out) with b by lia.
  replace (Nat.leb b (blen s)) with true by (symmetry; apply Nat.leb_le; lia). cbn [bind].
  replace (Nat.leb b (length s)) with true by (symmetry; apply Nat.leb_le; lia). cbn [bind].
  do 3 f_equal. rewrite encode_length, blen_app, app_length, repeat_length.
  change space with SPACE. rewrite blen_spaces. f_equal. f_equal; lia.
Qed.

Lemma normalize_trim dbg o s : normalize dbg o [MTrim] s = Ok (trim_modify s).
Proof.
  destruct dbg; [|reflexivity].
  unfold normalize, normalize_with_positions. cbn [negb normalize_records modify_with_positions].
  destruct (trim_parts_exists s) as (a & out & b & H). apply trim_parts_eq in H. destruct H as [-> ->]. reflexivity.
Qed.

(** ** C10 *)
Lemma C10_exact_lemma dbg o l s :
  normalize dbg o [MElim (elim_from_chars l)] s =
  Ok (filter (fun c => if in_dec N.eq_dec c l then false else true) s).
Proof.
  rewrite normalize_elim, elim_from_chars_filter. f_equal. apply filter_ext. intros c.
  destruct (in_dec N.eq_dec c l) as [H|H].
  - apply (mem_In N.eqb N.eqb_eq) in H. rewrite H. reflexivity.
  - apply (mem_false N.eqb N.eqb_eq) in H. rewrite H. reflexivity.
Qed.
Lemma filter_idem {A} (f : A -> bool) l : filter f (filter f l) = filter f l.
Proof. induction l as [|x l IH]; [reflexivity|]. simpl. destruct (f x) eqn:E; simpl; rewrite ?E, IH; reflexivity. Qed.
Lemma C10_idem_lemma dbg o dbg' o' l s out :
  normalize dbg o [MElim (elim_from_chars l)] s = Ok out ->
  normalize dbg' o' [MElim (elim_from_chars l)] out = Ok out.
Proof.
  rewrite !C10_exact_lemma. intros H. inversion H; subst. rewrite filter_idem. reflexivity.
Qed.
Lemma C10_set_lemma dbg o dbg' o' l l' s : (forall c, In c l <-> In c l') ->
  normalize dbg o [MElim (elim_from_chars l)] s = normalize dbg' o' [MElim (elim_from_chars l')] s.
Proof.
  intros H. rewrite !C10_exact_lemma. f_equal. apply filter_ext. intros c.
  destruct (in_dec N.eq_dec c l) as [A|A], (in_dec N.eq_dec c l') as [B|B]; try reflexivity; exfalso; firstorder.
Qed.
Lemma C10_count_lemma dbg o l s out c :
  normalize dbg o [MElim (elim_from_chars l)] s = Ok out ->
  count_occ N.eq_dec out c = if in_dec N.eq_dec c l then 0 else count_occ N.eq_dec s c.
Proof.
  rewrite C10_exact_lemma. intros H; inversion H; subst. clear H.
  induction s as [|x s IH]; cbn [filter count_occ].
  - destruct (in_dec N.eq_dec c l); reflexivity.
  - destruct (in_dec N.eq_dec x l) as [A|A]; cbn [count_occ].
    + rewrite IH. destruct (in_dec N.eq_dec c l) as [B|B]; [reflexivity|].
      destruct (N.eq_dec x c) as [->|]; [contradiction|reflexivity].
    + rewrite IH. destruct (N.eq_dec x c) as [->|]; [|reflexivity].
      destruct (in_dec N.eq_dec c l); [contradiction|reflexivity].
Qed.

(** ** C11-C14 *)
Lemma C11_exact_lemma dbg o c s out : normalize dbg o [MRed c] s = Ok out <-> collapsed c s out.
Proof.
  rewrite normalize_red, <- red_modify_spec. split; [intros H; inversion H; reflexivity|intros ->; reflexivity].
Qed.
Lemma C11_stable_lemma dbg o dbg' o' c s out : normalize dbg o [MRed c] s = Ok out ->
  (forall a b, out <> a ++ c :: c :: b) /\ normalize dbg' o' [MRed c] out = Ok out.
Proof.
  rewrite !normalize_red. intros H; inversion H; subst. split.
  - apply red_modify_no_adjacent.
  - f_equal. apply no_adjacent_fix, red_modify_no_adjacent.
Qed.
Lemma normalize_with_positions_red o c s :
  normalize_with_positions o [MRed c] s =
  Ok [Record (MRed c) (red_modify c s) (map (mk_run_pos c s) (runs_loop c 0 0 s))].
Proof.
  unfold normalize_with_positions. cbn [normalize_records modify_with_positions].
  rewrite red_positions_eq. reflexivity.
Qed.
Lemma C12_lemma o c s : exists out ps, normalize_with_positions o [MRed c] s = Ok [Record (MRed c) out ps] /\
  forall dbg o', normalize dbg o' [MRed c] s = Ok out.
Proof.
  eexists. eexists. split; [apply normalize_with_positions_red|]. intros. apply normalize_red.
Qed.

Lemma cut_length_le {A} i n (l : list A) : length (cut i n l) <= length l.
Proof. unfold cut. rewrite firstn_length, skipn_length. lia. Qed.
Lemma blen_cut i n s : blen (cut i n s) <= blen s.
Proof.
  unfold cut. rewrite <- (firstn_skipn i s) at 2. rewrite blen_app.
  rewrite <- (firstn_skipn n (skipn i s)) at 2. rewrite blen_app. lia.
Qed.

Lemma Forall2_map_r {A B} (P : A -> B -> Prop) (f : A -> B) l :
  (forall x, In x l -> P x (f x)) -> Forall2 P l (map f l).
Proof.
  induction l as [|x l IH]; intros H; cbn; constructor; [apply H; left; reflexivity|].
  apply IH. intros y Hy. apply H. right; exact Hy.
Qed.

Lemma C13_lemma o c s out ps : normalize_with_positions o [MRed c] s = Ok [Record (MRed c) out ps] ->
  exists rs, all_runs c s rs /\
    Forall2 (fun '(i, n) p => p_from p = cut i n s /\ p_to p = [c] /\
       p_length p = length (encode (cut i n s)) /\ p_utf8_length p = n /\ p_length p <= length (encode s)) rs ps.
Proof.
  rewrite normalize_with_positions_red. intros H; inversion H; subst out ps. clear H.
  exists (runs_loop c 0 0 s). pose proof (runs_loop_all c s) as HA. split; [exact HA|].
  apply Forall2_map_r. intros [i n] Hin. apply HA in Hin. pose proof Hin as (H1 & H2 & H3 & _).
  unfold mk_run_pos, run_position, position_new. cbn [fst snd p_from p_to p_length p_utf8_length].
  rewrite H3, !encode_length, !blen_repeat.
  repeat split; try reflexivity.
  pose proof (blen_cut i n s) as Hb. rewrite H3, blen_repeat in Hb. exact Hb.
Qed.

Lemma C14_lemma o c s out ps : normalize_with_positions o [MRed c] s = Ok [Record (MRed c) out ps] ->
  exists rs, all_runs c s rs /\
    Forall2 (fun '(i, n) p =>
       (exists out', collapsed c (firstn (i + n) s) out' /\ p_index p = length (encode out')) /\
       (i + n < length s -> p_utf8_index p = i + n) /\
       (i + n = length s -> p_utf8_index p + n = length (encode s))) rs ps.
Proof.
  rewrite normalize_with_positions_red. intros H; inversion H; subst out ps. clear H.
  exists (runs_loop c 0 0 s). pose proof (runs_loop_all c s) as HA. split; [exact HA|].
  apply Forall2_map_r. intros [i n] Hin. apply HA in Hin. pose proof Hin as (H1 & H2 & H3 & _).
  unfold mk_run_pos, run_position, position_new. cbn [fst snd p_index p_utf8_index].
  split; [|split].
  - exists (red_modify c (firstn (i + n) s)). split; [apply red_modify_spec; reflexivity|].
    rewrite encode_length. reflexivity.
  - intros Hl. apply Nat.ltb_lt in Hl. rewrite Hl. reflexivity.
  - intros Hl. rewrite Hl, Nat.ltb_irrefl. rewrite encode_length.
    pose proof (blen_ge_length s). lia.
Qed.

(** ** C15, C16 *)
Lemma C15_lemma dbg o s out : normalize dbg o [MDot] s = Ok out <-> undotted None s out.
Proof.
  rewrite normalize_dot, <- dot_modify_spec. split; [intros H; inversion H; reflexivity|intros ->; reflexivity].
Qed.
Lemma spaces_between_no_outer s : spaces_between s ->
  hd_error s <> Some space /\ hd_error (rev s) <> Some space /\ (forall a b, s <> a ++ space :: space :: b).
Proof.
  intros H. split; [|split].
  - intros E. destruct s as [|x r]; [discriminate|]. cbn in E. inversion E; subst.
    destruct (H [] r eq_refl) as [A _]. exact (alnum_None A).
  - intros E. destruct (rev s) as [|x r] eqn:Er; [discriminate|]. cbn in E. inversion E; subst.
    assert (Es : s = rev r ++ space :: []).
    { rewrite <- (rev_involutive s), Er. reflexivity. }
    destruct (H _ _ Es) as [_ A]. exact (alnum_None A).
  - intros a b E. destruct (H _ _ E) as [_ (x & Hx & A)]. cbn in Hx. inversion Hx; subst. exact (space_not_alnum A).
Qed.
Lemma dot_rec_trailing p sp t n : dot_rec p sp (t ++ repeat SPACE n) = dot_rec p sp t.
Proof.
  revert p sp; induction t as [|x t IH]; intros p sp.
  - cbn [app dot_rec]. revert p sp; induction n as [|n IH]; intros p sp; [reflexivity|].
    cbn [repeat dot_rec]. rewrite N.eqb_refl. apply IH.
  - cbn [app dot_rec]. rewrite !IH. reflexivity.
Qed.
Lemma dot_trim s : dot_modify (trim_modify s) = dot_modify s.
Proof.
  destruct (trim_modify_trimmed s) as (_ & _ & a & b & E). rewrite E at 2.
  rewrite !dot_modify_rec. change space with SPACE. rewrite dot_rec_spaces, dot_rec_trailing. reflexivity.
Qed.
Lemma dot_red_gen s : (forall p sp, dot_rec p sp (red_rec SPACE false s) = dot_rec p sp s) /\
  (forall sp, dot_rec SPACE sp (red_rec SPACE true s) = dot_rec SPACE sp s).
Proof.
  induction s as [|x s [IH1 IH2]]; [split; reflexivity|].
  cbn [red_rec dot_rec]. destruct (N.eqb_spec SPACE x) as [<-|Hn].
  - split; intros; [cbn [dot_rec]; rewrite ?N.eqb_refl; apply IH2|].
    rewrite N.eqb_refl. apply IH2.
  - assert (Hx : N.eqb x SPACE = false) by (apply N.eqb_neq; congruence).
    split; intros; cbn [dot_rec]; rewrite Hx, IH1; reflexivity.
Qed.
Lemma dot_red s : dot_modify (red_modify SPACE s) = dot_modify s.
Proof. rewrite !dot_modify_rec, red_modify_rec. apply dot_red_gen. Qed.

Lemma C16_shape_lemma dbg o dbg' o' s out : normalize dbg o [MDot] s = Ok out ->
  spaces_between out /\ hd_error out <> Some space /\ hd_error (rev out) <> Some space /\
  (forall a b, out <> a ++ space :: space :: b) /\ normalize dbg' o' [MDot] out = Ok out.
Proof.
  rewrite !normalize_dot. intros H; inversion H; subst. pose proof (dot_modify_between s) as HB.
  split; [exact HB|]. destruct (spaces_between_no_outer _ HB) as (A & B & C). repeat split; auto.
  f_equal. apply dot_modify_fix, HB.
Qed.
Lemma C16_fix_lemma dbg o s : normalize dbg o [MDot] s = Ok s <-> spaces_between s.
Proof.
  rewrite normalize_dot. split.
  - intros H; inversion H as [E]. rewrite <- E. apply dot_modify_between.
  - intros H. f_equal. apply dot_modify_fix, H.
Qed.
Lemma C16_subsumes_lemma dbg o s :
  normalize dbg o [MTrim; MDot] s = normalize dbg o [MDot] s /\
  normalize dbg o [MRed SPACE; MDot] s = normalize dbg o [MDot] s.
Proof.
  rewrite normalize_dot. unfold normalize, normalize_with_positions.
  destruct dbg; cbn [negb normalize_fold normalize_records modify modify_with_positions bind].
  - rewrite red_positions_eq. destruct (trim_parts_exists s) as (a & out & b & H).
    apply trim_parts_eq in H. destruct H as [Et ->]. cbn [bind fst snd r_text].
    unfold records_text. cbn [rev app r_text]. rewrite dot_red, <- Et, dot_trim. auto.
  - rewrite dot_red, dot_trim. auto.
Qed.

(** ** C17-C19 *)
Lemma C17_lemma dbg o s out : normalize dbg o [MTrim] s = Ok out <-> trimmed s out.
Proof.
  rewrite normalize_trim. split.
  - intros H; inversion H; subst. apply trim_modify_trimmed.
  - intros H. f_equal. eapply trimmed_unique; [apply trim_modify_trimmed|exact H].
Qed.

Lemma delete_mid {A} (a b c : list A) :
  firstn (length a) (a ++ b ++ c) ++ skipn (length a + length b) (a ++ b ++ c) = a ++ c.
Proof.
  rewrite firstn_app, firstn_all, Nat.sub_diag. cbn [firstn]. rewrite app_nil_r. f_equal.
  rewrite app_assoc, skipn_app. rewrite skipn_all2 by (rewrite app_length; lia).
  rewrite app_length, Nat.sub_diag. reflexivity.
Qed.
Lemma encode_spaces n : encode (repeat space n) = repeat space n.
Proof. unfold encode. induction n as [|n IH]; cbn [repeat flat_map]; [reflexivity|]. rewrite IH. reflexivity. Qed.

Lemma trim_replay s a out b : trim_parts s a out b ->
  fold_right delete_chars s (trim_positions a out b) = out /\
  fold_right delete_bytes (encode s) (trim_positions a out b) = encode out /\
  forall p, In p (trim_positions a out b) ->
     p_to p = [] /\ p_from p <> [] /\
     cut (p_utf8_index p) (p_utf8_length p) s = p_from p /\
     cut (p_index p) (p_length p) (encode s) = encode (p_from p).
Proof.
  intros (E & H1 & H2 & H3). subst s. unfold trim_positions.
  split; [|split].
  - rewrite fold_right_app.
    assert (T : fold_right delete_chars (repeat space a ++ out ++ repeat space b)
       (if Nat.eqb b 0 then [] else
       [Pos (repeat space b) [] (length (encode (repeat space a ++ out))) b (length (repeat space a ++ out)) b]) = repeat space a ++ out).
    { destruct (Nat.eqb_spec b 0) as [->|]; cbn [fold_right repeat]; [rewrite app_nil_r; reflexivity|].
      unfold delete_chars. cbn [p_utf8_index p_utf8_length].
      pose proof (delete_mid (repeat space a ++ out) (repeat space b) []) as D.
      rewrite repeat_length, !app_nil_r in D. rewrite app_assoc. exact D. }
    rewrite T. destruct (Nat.eqb_spec a 0) as [->|]; [reflexivity|].
    cbn [fold_right]. unfold delete_chars. cbn [p_utf8_index p_utf8_length].
    pose proof (delete_mid [] (repeat space a) out) as D. rewrite repeat_length in D. exact D.
  - rewrite fold_right_app.
    assert (T : fold_right delete_bytes (encode (repeat space a ++ out ++ repeat space b))
       (if Nat.eqb b 0 then [] else
       [Pos (repeat space b) [] (length (encode (repeat space a ++ out))) b (length (repeat space a ++ out)) b]) = encode (repeat space a ++ out)).
    { destruct (Nat.eqb_spec b 0) as [->|]; cbn [fold_right repeat]; [rewrite app_nil_r; reflexivity|].
      unfold delete_bytes. cbn [p_index p_length].
      pose proof (delete_mid (encode (repeat space a ++ out)) (encode (repeat space b)) []) as D.
      rewrite (encode_spaces b) in D. rewrite repeat_length, !app_nil_r in D.
      rewrite (app_assoc _ out), (encode_app _ (repeat space b)), encode_spaces. exact D. }
    rewrite T. destruct (Nat.eqb_spec a 0) as [->|]; [reflexivity|].
    cbn [fold_right]. unfold delete_bytes. cbn [p_index p_length].
    rewrite encode_app, encode_spaces.
    pose proof (delete_mid [] (repeat space a) (encode out)) as D. rewrite repeat_length in D. exact D.
  - intros p Hp. apply in_app_iff in Hp. destruct Hp as [Hp|Hp].
    + destruct (Nat.eqb_spec a 0) as [->|Ha]; [destruct Hp|]. destruct Hp as [<-|[]].
      cbn [p_to p_from p_index p_length p_utf8_index p_utf8_length].
      split; [reflexivity|]. split; [destruct a; [lia|discriminate]|]. split.
      * pose proof (cut_app_exact [] (repeat space a) (out ++ repeat space b)) as D.
        rewrite repeat_length in D. exact D.
      * pose proof (cut_app_exact [] (repeat space a) (encode (out ++ repeat space b))) as D.
        rewrite repeat_length in D. rewrite encode_app, encode_spaces. exact D.
    + destruct (Nat.eqb_spec b 0) as [->|Hb]; [destruct Hp|]. destruct Hp as [<-|[]].
      cbn [p_to p_from p_index p_length p_utf8_index p_utf8_length].
      split; [reflexivity|]. split; [destruct b; [lia|discriminate]|]. split.
      * pose proof (cut_app_exact (repeat space a ++ out) (repeat space b) []) as D.
        rewrite repeat_length, app_nil_r in D. rewrite app_assoc. exact D.
      * pose proof (cut_app_exact (encode (repeat space a ++ out)) (encode (repeat space b)) []) as D.
        rewrite (encode_spaces b) in D. rewrite repeat_length, app_nil_r in D.
        rewrite (app_assoc _ out), (encode_app _ (repeat space b)), (encode_spaces b). exact D.
Qed.

Lemma normalize_with_positions_trim o s a out b : trim_parts s a out b ->
  normalize_with_positions o [MTrim] s = Ok [Record MTrim out (trim_positions a out b)].
Proof.
  intros H. unfold normalize_with_positions. cbn [normalize_records modify_with_positions].
  apply trim_parts_eq in H. destruct H as [_ ->]. reflexivity.
Qed.
Lemma C18_lemma o s : exists a out b,
  trim_parts s a out b /\
  normalize_with_positions o [MTrim] s = Ok [Record MTrim out (trim_positions a out b)] /\
  forall dbg o', normalize dbg o' [MTrim] s = Ok out.
Proof.
  destruct (trim_parts_exists s) as (a & out & b & H). exists a, out, b. split; [exact H|].
  split; [apply normalize_with_positions_trim; exact H|]. intros. rewrite normalize_trim.
  apply trim_parts_eq in H. destruct H as [-> _]. reflexivity.
Qed.
Lemma C18_replay_lemma o s out ps : normalize_with_positions o [MTrim] s = Ok [Record MTrim out ps] ->
  fold_right delete_chars s ps = out /\ fold_right delete_bytes (encode s) ps = encode out /\
  forall p, In p ps -> p_to p = [] /\ p_from p <> [] /\
     cut (p_utf8_index p) (p_utf8_length p) s = p_from p /\
     cut (p_index p) (p_length p) (encode s) = encode (p_from p).
Proof.
  destruct (trim_parts_exists s) as (a & out' & b & H). rewrite (normalize_with_positions_trim o s a out' b H).
  intros E; inversion E; subst. apply trim_replay, H.
Qed.
