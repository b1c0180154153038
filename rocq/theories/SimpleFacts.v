From Verif Require Import Base BaseFacts Utf8 StrOps Position Eliminator Reducer Dotted TrimMod Spec.

(** ** Eliminator *)
Lemma elim_modify_filter el s : elim_modify el s = filter (fun c => negb (mem N.eqb c el)) s.
Proof.
  induction s as [|c s IH]; simpl; [reflexivity|]. rewrite IH. destruct (mem N.eqb c el); reflexivity.
Qed.
Lemma mem_elim_from_chars l c : mem N.eqb c (elim_from_chars l) = mem N.eqb c l.
Proof.
  apply eq_true_iff_eq. rewrite !(mem_In N.eqb N.eqb_eq). unfold elim_from_chars.
  rewrite (hs_insert_all_In N.eqb N.eqb_eq). simpl. tauto.
Qed.
Lemma elim_from_chars_filter l s :
  elim_modify (elim_from_chars l) s = filter (fun c => negb (mem N.eqb c l)) s.
Proof.
  rewrite elim_modify_filter. apply filter_ext. intros c. rewrite mem_elim_from_chars. reflexivity.
Qed.

(** ** Reducer: a structural form of the loop *)
Fixpoint red_rec (c : char) (consec : bool) (s : str) : str :=
  match s with
  | [] => []
  | x :: r => if N.eqb c x then (if consec then red_rec c true r else x :: red_rec c true r)
              else x :: red_rec c false r
  end.
Lemma red_loop_rec c b text s : red_loop c b text s = text ++ red_rec c b s.
Proof.
  revert b text; induction s as [|x s IH]; intros b text; simpl.
  - rewrite app_nil_r. reflexivity.
  - destruct (N.eqb c x); [destruct b|]; rewrite IH, ?app_ass; reflexivity.
Qed.
Lemma red_modify_rec c s : red_modify c s = red_rec c false s.
Proof. unfold red_modify. rewrite red_loop_rec. reflexivity. Qed.

Lemma red_rec_repeat c n s : red_rec c true (repeat c n ++ s) = red_rec c true s.
Proof. induction n as [|n IH]; simpl; [reflexivity|]. rewrite N.eqb_refl. exact IH. Qed.
Lemma red_rec_repeat_pos c n s : n > 0 -> red_rec c false (repeat c n ++ s) = c :: red_rec c true s.
Proof.
  intros H. destruct n as [|n]; [lia|]. simpl. rewrite N.eqb_refl, red_rec_repeat. reflexivity.
Qed.
Lemma red_rec_other c s : hd_error s <> Some c -> red_rec c true s = red_rec c false s.
Proof.
  destruct s as [|x s]; simpl; [reflexivity|]. intros H.
  destruct (N.eqb_spec c x) as [->|Hn]; [congruence|reflexivity].
Qed.

Lemma span_run c (s : str) :
  exists n r, s = repeat c n ++ r /\ hd_error r <> Some c.
Proof.
  induction s as [|x s (n & r & -> & H)].
  - exists 0, []. split; [reflexivity|discriminate].
  - destruct (N.eq_dec x c) as [->|Hn].
    + exists (S n), r. auto.
    + exists 0, (x :: repeat c n ++ r). split; [reflexivity|]. simpl. congruence.
Qed.

Lemma collapsed_red_rec c s out : collapsed c s out -> out = red_rec c false s.
Proof.
  induction 1 as [|x s out Hx H IH|n s out Hn Hh H IH].
  - reflexivity.
  - simpl. destruct (N.eqb_spec c x) as [->|_]; [congruence|]. rewrite <- IH. reflexivity.
  - rewrite red_rec_repeat_pos by exact Hn. rewrite red_rec_other by exact Hh. rewrite <- IH. reflexivity.
Qed.
Lemma red_rec_collapsed c s : collapsed c s (red_rec c false s).
Proof.
  remember (length s) as n eqn:En. revert s En.
  induction n as [n IH] using lt_wf_ind. intros s En.
  destruct s as [|x s]; [constructor|].
  destruct (N.eq_dec x c) as [->|Hx].
  - destruct (span_run c s) as (k & r & -> & Hr).
    change (c :: repeat c k ++ r) with (repeat c (S k) ++ r).
    rewrite red_rec_repeat_pos by lia. rewrite red_rec_other by exact Hr.
    apply col_run; [lia|exact Hr|]. eapply IH; [|reflexivity].
    subst n. simpl. rewrite app_length, repeat_length. lia.
  - simpl. destruct (N.eqb_spec c x) as [->|_]; [congruence|].
    apply col_other; [exact Hx|]. eapply IH; [|reflexivity]. subst n. simpl. lia.
Qed.

Lemma red_modify_spec c s out : red_modify c s = out <-> collapsed c s out.
Proof.
  rewrite red_modify_rec. split.
  - intros <-. apply red_rec_collapsed.
  - intros H. symmetry. apply collapsed_red_rec, H.
Qed.

Lemma red_rec_true_hd c s : hd_error (red_rec c true s) <> Some c.
Proof.
  induction s as [|x s IH]; simpl; [discriminate|].
  destruct (N.eqb_spec c x) as [->|H]; [exact IH|]. simpl. congruence.
Qed.
Definition no_adjacent (c : char) (s : str) : Prop := forall a b, s <> a ++ c :: c :: b.
Lemma red_rec_no_adjacent c b s : no_adjacent c (red_rec c b s).
Proof.
  revert b; induction s as [|x s IH]; intros b a r; simpl.
  - destruct a; discriminate.
  - assert (Hstep : forall b', x :: red_rec c b' s = a ++ c :: c :: r ->
              (x = c -> b' = true) -> False).
    { intros b' H Hb. destruct a as [|y a]; simpl in H; inversion H.
      - subst x. rewrite (Hb eq_refl) in H2.
        apply (red_rec_true_hd c s). rewrite H2. reflexivity.
      - eapply IH; eassumption. }
    destruct (N.eqb_spec c x) as [->|Hn].
    + destruct b; [apply IH|]. intros H. apply (Hstep true H). auto.
    + intros H. apply (Hstep false H). congruence.
Qed.
Lemma no_adjacent_fix c s : no_adjacent c s -> red_modify c s = s.
Proof.
  rewrite red_modify_rec. induction s as [|x s IH]; intros H; simpl; [reflexivity|].
  assert (Hs : no_adjacent c s) by (intros a b E; apply (H (x :: a) b); rewrite E; reflexivity).
  destruct (N.eqb_spec c x) as [<-|Hn].
  - rewrite red_rec_other; [rewrite IH by exact Hs; reflexivity|].
    intros Hh. destruct s as [|y s]; [discriminate|]. simpl in Hh. inversion Hh; subst.
    apply (H [] s). reflexivity.
  - rewrite IH by exact Hs. reflexivity.
Qed.
Lemma red_modify_no_adjacent c s : no_adjacent c (red_modify c s).
Proof. rewrite red_modify_rec. apply red_rec_no_adjacent. Qed.

(** ** Reducer: positions *)
Fixpoint runs_loop (c : char) (i cnt : nat) (s : str) : list (nat * nat) :=
  match s with
  | [] => if Nat.ltb 0 cnt then [(i - cnt, cnt)] else []
  | x :: r => if N.eqb c x then runs_loop c (S i) (S cnt) r
              else (if Nat.ltb 0 cnt then [(i - cnt, cnt)] else []) ++ runs_loop c (S i) 0 r
  end.

Definition run_pos_ok (c : char) (s : str) (r : nat * nat) (p : position) : Prop :=
  let '(i, n) := r in
  p_from p = repeat c n /\ p_to p = [c] /\ p_length p = blen (repeat c n) /\ p_utf8_length p = n /\
  p_index p = blen (red_modify c (firstn (i + n) s)) /\
  p_utf8_index p = (if Nat.ltb (i + n) (length s) then i + n else blen s - n).

Lemma blen_app a b : blen (a ++ b) = blen a + blen b.
Proof. unfold blen. induction a as [|x a IH]; simpl; [reflexivity|]. rewrite IH. lia. Qed.
Lemma len_utf8_pos c : 1 <= len_utf8 c <= 4.
Proof. unfold len_utf8. repeat destruct (N.ltb _ _); lia. Qed.
Lemma blen_ge_length s : length s <= blen s.
Proof.
  unfold blen. induction s as [|c s IH]; simpl; [lia|]. pose proof (len_utf8_pos c). lia.
Qed.
Lemma blen_repeat c n : blen (repeat c n) = len_utf8 c * n.
Proof. unfold blen. induction n as [|n IH]; simpl; [lia|]. rewrite IH. lia. Qed.

Lemma red_modify_app_end c pre cnt x :
  (cnt = 0 -> hd_error (rev pre) <> Some c) -> (cnt > 0 -> hd_error (rev pre) = Some c) ->
  red_modify c (pre ++ [x]) =
  if N.eqb c x then (if Nat.ltb 0 cnt then red_modify c pre else red_modify c pre ++ [x])
  else red_modify c pre ++ [x].
Proof.
  rewrite !red_modify_rec.
  assert (G : forall b, red_rec c b (pre ++ [x]) =
     red_rec c b pre ++
     (if N.eqb c x && match hd_error (rev pre) with Some y => N.eqb c y | None => b end then [] else [x])).
  { induction pre as [|y pre IH]; intros b; simpl.
    - destruct (N.eqb c x); [destruct b|]; reflexivity.
    - assert (E : match hd_error (rev pre ++ [y]) with Some z => N.eqb c z | None => b end =
                  match hd_error (rev pre) with Some z => N.eqb c z | None => N.eqb c y end).
      { destruct (rev pre); reflexivity. }
      rewrite E. destruct (N.eqb c y) eqn:Ey; [destruct b|]; rewrite IH; try reflexivity. }
  intros H0 H1. rewrite G. destruct (N.eqb c x); cbn [andb]; [|reflexivity].
  destruct cnt as [|cnt]; cbn [Nat.ltb Nat.leb].
  - specialize (H0 eq_refl). destruct (hd_error (rev pre)) as [y|]; [|reflexivity].
    destruct (N.eqb_spec c y) as [->|_]; [congruence|reflexivity].
  - rewrite H1 by lia. rewrite N.eqb_refl, app_nil_r. reflexivity.
Qed.

Definition mk_run_pos (c : char) (s : str) (r : nat * nat) : position :=
  run_position c (snd r) (blen (red_modify c (firstn (fst r + snd r) s)))
    (if Nat.ltb (fst r + snd r) (length s) then fst r + snd r else blen s - snd r).

Lemma red_pos_loop_ok c s0 s : forall pre cnt ps,
  s0 = pre ++ s -> cnt <= length pre ->
  (cnt = 0 -> hd_error (rev pre) <> Some c) -> (cnt > 0 -> hd_error (rev pre) = Some c) ->
  exists cnt' ps',
    red_pos_loop c (length pre) cnt (red_modify c pre) ps s = (cnt', red_modify c s0, ps ++ ps') /\
    cnt' <= length s0 /\
    map (mk_run_pos c s0) (runs_loop c (length pre) cnt s) =
      ps' ++ (if Nat.ltb 0 cnt' then [run_position c cnt' (blen (red_modify c s0)) (blen s0 - cnt')] else []).
Proof.
  induction s as [|x s IH]; intros pre cnt ps E Hle H0 H1.
  - rewrite app_nil_r in E. subst s0. exists cnt, []. cbn [red_pos_loop runs_loop].
    rewrite app_nil_r. split; [reflexivity|]. split; [exact Hle|].
    destruct (Nat.ltb 0 cnt); cbn [map app]; [|reflexivity].
    unfold mk_run_pos. cbn [fst snd]. replace (length pre - cnt + cnt) with (length pre) by lia.
    rewrite firstn_all, Nat.ltb_irrefl. reflexivity.
  - assert (E' : s0 = (pre ++ [x]) ++ s) by (rewrite E, <- app_assoc; reflexivity).
    pose proof (red_modify_app_end c pre cnt x H0 H1) as RM.
    assert (Hlen : length (pre ++ [x]) = S (length pre)) by (rewrite app_length; simpl; lia).
    cbn [red_pos_loop runs_loop].
    destruct (N.eqb_spec c x) as [<-|Hn].
    + destruct (Nat.ltb_spec 0 cnt) as [Hc|Hc].
      * destruct (IH (pre ++ [c]) (cnt + 1) ps E') as (cnt' & ps' & A & B & C).
        { rewrite Hlen. lia. } { lia. } { intros _. rewrite rev_app_distr. reflexivity. }
        rewrite RM, Hlen in A. rewrite Hlen in C. rewrite Nat.add_1_r in C.
        exists cnt', ps'. rewrite A. auto.
      * assert (cnt = 0) by lia. subst cnt.
        destruct (IH (pre ++ [c]) 1 ps E') as (cnt' & ps' & A & B & C).
        { rewrite Hlen. lia. } { lia. } { intros _. rewrite rev_app_distr. reflexivity. }
        rewrite RM, Hlen in A. rewrite Hlen in C.
        exists cnt', ps'. rewrite A. auto.
    + assert (Hhd : hd_error (rev (pre ++ [x])) <> Some c)
        by (rewrite rev_app_distr; simpl; congruence).
      destruct (Nat.ltb_spec 0 cnt) as [Hc|Hc].
      * destruct (IH (pre ++ [x]) 0 (ps ++ [run_position c cnt (blen (red_modify c pre)) (length pre)]) E')
          as (cnt' & ps' & A & B & C).
        { lia. } { intros _; exact Hhd. } { lia. }
        rewrite RM, Hlen in A. rewrite Hlen in C.
        exists cnt', (run_position c cnt (blen (red_modify c pre)) (length pre) :: ps').
        rewrite A, <- app_assoc. split; [reflexivity|]. split; [exact B|].
        cbn [app map]. rewrite C. f_equal.
        unfold mk_run_pos. cbn [fst snd]. replace (length pre - cnt + cnt) with (length pre) by lia.
        assert (F : firstn (length pre) s0 = pre).
        { rewrite E, firstn_app, Nat.sub_diag, firstn_all. simpl. apply app_nil_r. }
        rewrite F. replace (Nat.ltb (length pre) (length s0)) with true; [reflexivity|].
        symmetry. apply Nat.ltb_lt. rewrite E, app_length. simpl. lia.
      * assert (cnt = 0) by lia. subst cnt.
        destruct (IH (pre ++ [x]) 0 ps E') as (cnt' & ps' & A & B & C).
        { lia. } { intros _; exact Hhd. } { lia. }
        rewrite RM, Hlen in A. rewrite Hlen in C.
        exists cnt', ps'. rewrite A. auto.
Qed.

Lemma red_positions_eq c s :
  red_modify_with_positions c s = Ok (red_modify c s, map (mk_run_pos c s) (runs_loop c 0 0 s)).
Proof.
  unfold red_modify_with_positions.
  destruct (red_pos_loop_ok c s s [] 0 [] eq_refl) as (cnt' & ps' & A & B & C);
    [simpl; lia|discriminate|lia|].
  cbn [length] in A, C. change (red_modify c []) with ([] : str) in A. rewrite A, C. cbn [app].
  destruct (Nat.ltb 0 cnt'); [|rewrite app_nil_r; reflexivity].
  unfold checked_sub. pose proof (blen_ge_length s).
  replace (Nat.leb cnt' (blen s)) with true by (symmetry; apply Nat.leb_le; lia).
  reflexivity.
Qed.

(** [runs_loop] lists exactly the maximal runs. *)
Lemma cut_app_r {A} (pre s : list A) i n : cut (length pre + i) n (pre ++ s) = cut i n s.
Proof.
  unfold cut. rewrite skipn_app. rewrite (skipn_all2 pre) by lia.
  replace (length pre + i - length pre) with i by lia. reflexivity.
Qed.

Lemma increasing_cons x l : (forall y, In y l -> x < y) -> increasing l -> increasing (x :: l).
Proof.
  intros H1 H2. simpl. split; [|exact H2]. destruct l as [|y l]; [trivial|]. apply H1. left; reflexivity.
Qed.

Lemma runs_loop_lower c s : forall i cnt j n, cnt <= i -> In (j, n) (runs_loop c i cnt s) -> i - cnt <= j /\ (cnt = 0 -> i <= j).
Proof.
  induction s as [|x s IH]; intros i cnt j n Hc; cbn [runs_loop].
  - destruct (Nat.ltb_spec 0 cnt); [|intros []]. intros [H'|[]]. inversion H'; subst. lia.
  - destruct (N.eqb c x).
    + intros H. destruct (IH (S i) (S cnt) j n) as [A _]; [lia|exact H|]. lia.
    + rewrite in_app_iff. intros [H|H].
      * destruct (Nat.ltb_spec 0 cnt); [|destruct H]. destruct H as [H'|[]]. inversion H'; subst. lia.
      * destruct (IH (S i) 0 j n) as [A B]; [lia|exact H|]. lia.
Qed.
Lemma runs_loop_increasing c s : forall i cnt, cnt <= i -> increasing (map fst (runs_loop c i cnt s)).
Proof.
  induction s as [|x s IH]; intros i cnt Hc; cbn [runs_loop].
  - destruct (Nat.ltb 0 cnt); simpl; auto.
  - destruct (N.eqb c x); [apply IH; lia|].
    destruct (Nat.ltb_spec 0 cnt).
    + cbn [app map fst]. apply increasing_cons; [|apply IH; lia].
      intros y Hy. apply in_map_iff in Hy. destruct Hy as ([j n] & <- & Hj). cbn [fst].
      destruct (runs_loop_lower c s (S i) 0 j n) as [_ B]; [lia|exact Hj|]. specialize (B eq_refl). lia.
    + apply IH. lia.
Qed.

(** Run structure of a string with known prefix [pre ++ repeat c cnt]. *)
Lemma nth_error_cut {A} (l : list A) i n k : k < n -> nth_error (cut i n l) k = nth_error l (i + k).
Proof.
  intros H. unfold cut. revert n k H i.
  assert (G : forall (l : list A) n k, k < n -> nth_error (firstn n l) k = nth_error l k).
  { induction l0 as [|x l0 IH]; intros n k Hk; destruct n; try lia; destruct k; simpl; auto.
    apply IH. lia. }
  intros n k H i. rewrite G by exact H. revert l; induction i as [|i IH]; intros l; simpl; [reflexivity|].
  destruct l as [|x l]; [destruct k; reflexivity|]. apply IH.
Qed.
Lemma nth_error_repeat' {A} (x : A) n k : k < n -> nth_error (repeat x n) k = Some x.
Proof. intros H. apply nth_error_repeat. exact H. Qed.

Lemma maximal_run_char c s i n k :
  maximal_run c s i n -> i <= k < i + n -> nth_error s k = Some c.
Proof.
  intros (H1 & H2 & H3 & _) H. replace k with (i + (k - i)) by lia.
  rewrite <- (nth_error_cut s i n) by lia. rewrite H3. apply nth_error_repeat'. lia.
Qed.

Lemma cut_all_c (c : char) (s : str) i n : i + n <= length s -> (forall k, i <= k < i + n -> nth_error s k = Some c) ->
  cut i n s = repeat c n.
Proof.
  intros Hl H. revert i Hl H; induction n as [|n IH]; intros i Hl H; [reflexivity|].
  unfold cut in *. assert (Hi : nth_error s i = Some c) by (apply H; lia).
  destruct (nth_error_split _ _ Hi) as (l1 & l2 & -> & Hlen).
  rewrite <- Hlen at 1. rewrite skipn_app, skipn_all, Nat.sub_diag. cbn [app skipn firstn repeat]. f_equal.
  specialize (IH (S i)). rewrite app_length in Hl. simpl in Hl.
  rewrite skipn_app in IH. rewrite skipn_all2 in IH by lia.
  replace (S i - length l1) with 1 in IH by lia. cbn [app skipn] in IH. apply IH.
  - rewrite app_length. simpl. lia.
  - intros k Hk. apply H. lia.
Qed.

Lemma runs_loop_spec c s0 s : forall i cnt,
  (i = length s0 - length s) -> length s <= length s0 -> cnt <= i -> skipn i s0 = s ->
  (forall k, i - cnt <= k < i -> nth_error s0 k = Some c) ->
  (i - cnt = 0 \/ nth_error s0 (i - cnt - 1) <> Some c) ->
  forall j n, In (j, n) (runs_loop c i cnt s) <-> (maximal_run c s0 j n /\ i - cnt <= j /\ (cnt = 0 -> i <= j)).
Proof.
  induction s as [|x s IH]; intros i cnt Hi Hls Hc Hsk Hall Hb j n; cbn [runs_loop].
  - assert (Hi' : i = length s0) by (simpl in Hi; lia).
    destruct (Nat.ltb_spec 0 cnt) as [Hp|Hp].
    + split.
      * intros [H|[]]. inversion H; subst j n. split; [|lia]. repeat split.
        -- lia. -- lia.
        -- apply cut_all_c; [lia|]. intros k Hk. apply Hall. lia.
        -- exact Hb.
        -- replace (i - cnt + cnt) with i by lia. rewrite (proj2 (nth_error_None s0 i)); [discriminate|lia].
      * intros (Hm & Hj & _). left. assert (j = i - cnt).
        { destruct (Nat.eq_dec j (i - cnt)) as [|Hne]; [assumption|]. exfalso.
          pose proof Hm as (M1 & M2 & _ & [M4|M4] & _); [lia|]. apply M4. apply Hall. lia. }
        subst j. f_equal. pose proof Hm as (M1 & M2 & _ & _ & M5).
        destruct (Nat.lt_trichotomy n cnt) as [H|[H|H]]; [|auto|lia].
        exfalso. apply M5. apply Hall. lia.
    + split; [intros []|]. intros ((M1 & M2 & _) & Hj & _). lia.
  - assert (Hx : nth_error s0 i = Some x).
    { rewrite <- (firstn_skipn i s0), Hsk, nth_error_app2; rewrite firstn_length; [|lia].
      simpl in Hi, Hls. replace (i - Nat.min i (length s0)) with 0 by lia. reflexivity. }
    assert (Hsk' : skipn (S i) s0 = s).
    { replace (S i) with (1 + i) by lia. rewrite <- (firstn_skipn i s0) at 1. rewrite Hsk.
      rewrite skipn_app, firstn_length. simpl in Hi, Hls. rewrite skipn_all2 by (rewrite firstn_length; lia).
      replace (1 + i - Nat.min i (length s0)) with 1 by lia. reflexivity. }
    simpl in Hi, Hls.
    destruct (N.eqb_spec c x) as [<-|Hn].
    + rewrite (IH (S i) (S cnt)); try lia; try assumption.
      * replace (S i - S cnt) with (i - cnt) by lia. split.
        -- intros (Hm & Hj & _). split; [exact Hm|]. split; [exact Hj|]. intros ->. lia.
        -- intros (Hm & Hj & Hz). split; [exact Hm|]. split; [exact Hj|]. discriminate.
      * replace (S i - S cnt) with (i - cnt) by lia. intros k Hk.
        destruct (Nat.eq_dec k i) as [->|]; [exact Hx|]. apply Hall. lia.
    + rewrite in_app_iff. rewrite (IH (S i) 0); try lia; try assumption.
      2:{ right. replace (S i - 0 - 1) with i by lia. rewrite Hx. congruence. }
      split.
      * intros [H|(Hm & Hj & Hz)].
        -- destruct (Nat.ltb_spec 0 cnt) as [Hp|]; [|destruct H]. destruct H as [H|[]]. inversion H; subst j n.
           split; [|lia]. repeat split.
           ++ lia. ++ lia.
           ++ apply cut_all_c; [lia|]. intros k Hk. apply Hall. lia.
           ++ exact Hb.
           ++ replace (i - cnt + cnt) with i by lia. rewrite Hx. congruence.
        -- split; [exact Hm|]. specialize (Hz eq_refl). lia.
      * intros (Hm & Hj & Hz).
        destruct (Nat.lt_trichotomy j i) as [Hlt|[->|Hgt]].
        -- left. destruct (Nat.ltb_spec 0 cnt) as [Hp|Hp]; [|lia]. left.
           assert (j = i - cnt).
           { destruct (Nat.eq_dec j (i - cnt)) as [|Hne]; [assumption|]. exfalso.
             pose proof Hm as (M1 & M2 & _ & [M4|M4] & _); [lia|]. apply M4. apply Hall. lia. }
           subst j. f_equal. pose proof Hm as (M1 & M2 & _ & _ & M5).
           destruct (Nat.lt_trichotomy n cnt) as [H|[H|H]]; [|auto|].
           ++ exfalso. apply M5. apply Hall. lia.
           ++ exfalso. assert (HH := maximal_run_char c s0 (i - cnt) n i Hm). rewrite Hx in HH.
              assert (Some x = Some c) by (apply HH; lia). congruence.
        -- exfalso. pose proof Hm as (M1 & _).
           assert (HH := maximal_run_char c s0 i n i Hm). rewrite Hx in HH.
           assert (Some x = Some c) by (apply HH; lia). congruence.
        -- right. split; [exact Hm|]. lia.
Qed.

Lemma runs_loop_all c s : all_runs c s (runs_loop c 0 0 s).
Proof.
  split; [apply runs_loop_increasing; lia|].
  intros i n. rewrite (runs_loop_spec c s s 0 0); try lia; try reflexivity.
  - intuition lia.
Qed.

(** ** Dotted space eliminator *)
Lemma is_alnum_spec c : is_ascii_alphanumeric c = true <-> alnum c.
Proof.
  unfold is_ascii_alphanumeric, alnum. rewrite !orb_true_iff, !andb_true_iff, !N.leb_le. lia.
Qed.
Lemma space_not_alnum : ~ alnum space.
Proof. unfold alnum, space. lia. Qed.

Fixpoint dot_rec (prev : char) (sp : bool) (s : str) : str :=
  match s with
  | [] => []
  | c :: r =>
      if N.eqb c SPACE then dot_rec c (if is_ascii_alphanumeric prev then true else sp) r
      else (if sp then (if is_ascii_alphanumeric c then [SPACE] else []) else []) ++ c :: dot_rec c false r
  end.
Lemma dot_loop_rec prev sp text s : dot_loop prev sp text s = text ++ dot_rec prev sp s.
Proof.
  revert prev sp text; induction s as [|c s IH]; intros prev sp text; cbn [dot_loop dot_rec].
  - rewrite app_nil_r. reflexivity.
  - destruct (N.eqb c SPACE); rewrite IH; [reflexivity|].
    destruct sp; [destruct (is_ascii_alphanumeric c)|]; cbn [app]; rewrite <- ?app_assoc; reflexivity.
Qed.
Lemma dot_modify_rec s : dot_modify s = dot_rec SPACE false s.
Proof. unfold dot_modify. rewrite dot_loop_rec. reflexivity. Qed.

Lemma dot_rec_spaces n s sp : dot_rec SPACE sp (repeat SPACE n ++ s) = dot_rec SPACE sp s.
Proof. induction n as [|n IH]; [reflexivity|]. cbn [repeat app dot_rec]. rewrite N.eqb_refl. exact IH. Qed.
Lemma dot_rec_run n s p : n > 0 ->
  dot_rec p false (repeat SPACE n ++ s) = dot_rec SPACE (is_ascii_alphanumeric p) s.
Proof.
  intros H. destruct n as [|n]; [lia|]. cbn [repeat app dot_rec]. rewrite N.eqb_refl.
  destruct (is_ascii_alphanumeric p); apply dot_rec_spaces.
Qed.
Lemma dot_rec_nonspace p p' s : hd_error s <> Some SPACE -> dot_rec p false s = dot_rec p' false s.
Proof.
  destruct s as [|x s]; [reflexivity|]. cbn [hd_error dot_rec]. intros H.
  destruct (N.eqb_spec x SPACE) as [->|_]; [congruence|reflexivity].
Qed.
Lemma dot_rec_flag p s : hd_error s <> Some SPACE ->
  dot_rec p true s = (match hd_error s with Some x => if is_ascii_alphanumeric x then [SPACE] else [] | None => [] end)
                     ++ dot_rec p false s.
Proof.
  destruct s as [|x s]; [reflexivity|]. cbn [hd_error dot_rec]. intros H.
  destruct (N.eqb_spec x SPACE) as [->|_]; [congruence|]. reflexivity.
Qed.

Definition prev_of (p : option char) : char := match p with Some c => c | None => SPACE end.
Lemma alnum_prev p : alnum_opt p <-> is_ascii_alphanumeric (prev_of p) = true.
Proof.
  rewrite is_alnum_spec. unfold alnum_opt, prev_of. destruct p as [c|].
  - split; [intros (x & H & A); inversion H; subst; exact A|]. intros A; exists c; auto.
  - split; [intros (x & H & _); discriminate|]. intros A. destruct (space_not_alnum A).
Qed.
Lemma alnum_next s : alnum_opt (hd_error s) <->
  match hd_error s with Some x => is_ascii_alphanumeric x = true | None => False end.
Proof.
  unfold alnum_opt. destruct (hd_error s) as [x|].
  - rewrite is_alnum_spec. split; [intros (y & H & A); inversion H; subst; exact A|intros A; exists x; auto].
  - split; [intros (y & H & _); discriminate|intros []].
Qed.

Lemma undotted_dot_rec p s out : undotted p s out -> out = dot_rec (prev_of p) false s.
Proof.
  induction 1 as [p|p x s out Hx H IH|p n s out Hn Hh Hp Hq H IH|p n s out Hn Hh Hpq H IH].
  - reflexivity.
  - cbn [dot_rec]. destruct (N.eqb_spec x SPACE) as [->|_]; [contradiction Hx; reflexivity|].
    cbn [app]. rewrite IH. reflexivity.
  - change space with SPACE in *. rewrite dot_rec_run by exact Hn. apply alnum_prev in Hp. rewrite Hp.
    rewrite dot_rec_flag by exact Hh. apply alnum_next in Hq.
    destruct (hd_error s) as [x|]; [|destruct Hq]. rewrite Hq. cbn [app]. rewrite IH. reflexivity.
  - change space with SPACE in *. rewrite dot_rec_run by exact Hn.
    destruct (is_ascii_alphanumeric (prev_of p)) eqn:Ep.
    + rewrite dot_rec_flag by exact Hh.
      assert (Hq : ~ alnum_opt (hd_error s)) by (intros A; apply Hpq; split; [apply alnum_prev; exact Ep|exact A]).
      rewrite IH. rewrite alnum_next in Hq. destruct (hd_error s) as [x|]; [|reflexivity].
      destruct (is_ascii_alphanumeric x); [destruct Hq; reflexivity|reflexivity].
    + exact IH.
Qed.
Lemma dot_rec_undotted p s : undotted p s (dot_rec (prev_of p) false s).
Proof.
  remember (length s) as n eqn:En. revert p s En.
  induction n as [n IH] using lt_wf_ind. intros p s En.
  destruct s as [|x s]; [constructor|].
  destruct (N.eq_dec x SPACE) as [->|Hx].
  - destruct (span_run SPACE s) as (k & r & -> & Hr).
    change (SPACE :: repeat SPACE k ++ r) with (repeat SPACE (S k) ++ r).
    rewrite dot_rec_run by lia.
    assert (IHr : undotted (Some space) r (dot_rec SPACE false r)).
    { apply (IH (length r)) with (p := Some space); [|reflexivity].
      subst n. simpl. rewrite app_length, repeat_length. lia. }
    destruct (is_ascii_alphanumeric (prev_of p)) eqn:Ep.
    + rewrite dot_rec_flag by exact Hr.
      destruct (hd_error r) as [y|] eqn:Ey.
      * destruct (is_ascii_alphanumeric y) eqn:Eb.
        -- apply und_keep; auto; [lia|rewrite Ey; exact Hr|apply alnum_prev; exact Ep|].
           rewrite alnum_next, Ey. exact Eb.
        -- cbn [app]. apply und_drop; auto; [lia|rewrite Ey; exact Hr|].
           rewrite alnum_next, Ey, Eb. intros [_ H]. discriminate.
      * cbn [app]. apply und_drop; auto; [lia|rewrite Ey; exact Hr|].
        rewrite alnum_next, Ey. tauto.
    + apply und_drop; auto; [lia|].
      rewrite alnum_prev, Ep. intros [H _]. discriminate.
  - cbn [dot_rec]. destruct (N.eqb_spec x SPACE) as [->|_]; [congruence|]. cbn [app].
    apply und_char; [exact Hx|]. apply (IH (length s)) with (p := Some x); [|reflexivity]. subst n. simpl. lia.
Qed.
Lemma dot_modify_spec s out : dot_modify s = out <-> undotted None s out.
Proof.
  rewrite dot_modify_rec. split.
  - intros <-. apply (dot_rec_undotted None).
  - intros H. symmetry. apply (undotted_dot_rec None), H.
Qed.

(** Result shape: a local (inductive) form of [spaces_between]. *)
Fixpoint dotted_ok (p : option char) (s : str) : Prop :=
  match s with
  | [] => True
  | c :: r => (c = space -> alnum_opt p /\ alnum_opt (hd_error r)) /\ dotted_ok (Some c) r
  end.
Lemma dotted_ok_between_gen p s :
  dotted_ok p s <-> (forall a b, s = a ++ space :: b ->
     alnum_opt (match a with [] => p | _ => hd_error (rev a) end) /\ alnum_opt (hd_error b)).
Proof.
  revert p; induction s as [|c s IH]; intros p; cbn [dotted_ok].
  - split; [intros _ a b H; destruct a; discriminate|trivial].
  - rewrite IH. split.
    + intros [H1 H2] a b E. destruct a as [|x a]; cbn [app] in E; inversion E; subst.
      * apply H1. reflexivity.
      * specialize (H2 a b eq_refl). destruct a as [|y a]; [exact H2|].
        change (rev (x :: y :: a)) with (rev (y :: a) ++ [x]).
        destruct (rev (y :: a)) as [|z q] eqn:Er; [|exact H2].
        apply (f_equal (@length _)) in Er. rewrite rev_length in Er. discriminate.
    + intros H. split.
      * intros ->. apply (H [] s). reflexivity.
      * intros a b ->. specialize (H (c :: a) b eq_refl). destruct a as [|y a]; [exact H|].
        change (rev (c :: y :: a)) with (rev (y :: a) ++ [c]) in H.
        destruct (rev (y :: a)) as [|z q] eqn:Er; [|exact H].
        apply (f_equal (@length _)) in Er. rewrite rev_length in Er. discriminate.
Qed.
Lemma alnum_None : ~ alnum_opt None.
Proof. intros (x & H & _). discriminate. Qed.
Lemma dotted_ok_between s : dotted_ok None s <-> spaces_between s.
Proof.
  rewrite dotted_ok_between_gen. unfold spaces_between. split; intros H a b E; specialize (H a b E).
  - destruct a; [destruct H as [H _]; destruct (alnum_None H)|exact H].
  - destruct a; [destruct H as [H _]; destruct (alnum_None H)|exact H].
Qed.

Lemma undotted_hd p s out : undotted p s out ->
  hd_error s <> Some space -> hd_error out = hd_error s.
Proof.
  intros H Hh. destruct H as [p|p x s out Hx H|p n s out Hn _ _ _ _|p n s out Hn _ _ _].
  - reflexivity.
  - reflexivity.
  - destruct n; [lia|]. simpl in Hh. congruence.
  - destruct n; [lia|]. simpl in Hh. congruence.
Qed.
Lemma dotted_ok_weaken p p' s : hd_error s <> Some space -> dotted_ok p s -> dotted_ok p' s.
Proof. destruct s as [|c s]; cbn; [trivial|]. intros H [H1 H2]. split; [intros ->; congruence|exact H2]. Qed.
Lemma undotted_ok p s out : undotted p s out -> dotted_ok p out.
Proof.
  induction 1 as [p|p x s out Hx H IH|p n s out Hn Hh Hp Hq H IH|p n s out Hn Hh Hpq H IH].
  - exact I.
  - split; [intros ->; contradiction Hx; reflexivity|exact IH].
  - pose proof (undotted_hd _ _ _ H Hh) as E. split; [|exact IH].
    intros _. rewrite E. auto.
  - pose proof (undotted_hd _ _ _ H Hh) as E. eapply dotted_ok_weaken; [|exact IH]. rewrite E. exact Hh.
Qed.
Lemma dotted_ok_fix p s : dotted_ok p s -> undotted p s s.
Proof.
  revert p; induction s as [|c s IH]; intros p; cbn [dotted_ok]; [constructor|].
  intros [H1 H2]. destruct (N.eq_dec c space) as [->|Hn].
  - destruct (H1 eq_refl) as [Hp Hq]. apply (und_keep p 1 s s); auto.
    destruct Hq as (x & Hx & Ax). rewrite Hx. intros E; inversion E; subst. destruct (space_not_alnum Ax).
  - apply und_char; auto.
Qed.

Lemma dot_modify_between s : spaces_between (dot_modify s).
Proof.
  apply dotted_ok_between. apply undotted_ok with s. apply dot_modify_spec. reflexivity.
Qed.
Lemma dot_modify_fix s : spaces_between s -> dot_modify s = s.
Proof. intros H. apply dot_modify_spec. apply dotted_ok_fix. apply dotted_ok_between. exact H. Qed.

(** ** Trim *)
Lemma trim_start_spec c s : exists n, s = repeat c n ++ trim_start_matches c s /\
  hd_error (trim_start_matches c s) <> Some c.
Proof.
  induction s as [|x s (n & E & H)].
  - exists 0. split; [reflexivity|discriminate].
  - simpl. destruct (N.eqb_spec x c) as [->|Hn].
    + exists (S n). split; [simpl; congruence|exact H].
    + exists 0. split; [reflexivity|simpl; congruence].
Qed.
Lemma rev_repeat {A} (x : A) n : rev (repeat x n) = repeat x n.
Proof.
  induction n as [|n IH]; simpl; [reflexivity|]. rewrite IH.
  clear IH. induction n as [|n IH]; simpl; [reflexivity|]. rewrite IH. reflexivity.
Qed.
Lemma trim_end_spec c s : exists n, s = trim_end_matches c s ++ repeat c n /\
  hd_error (rev (trim_end_matches c s)) <> Some c.
Proof.
  destruct (trim_start_spec c (rev s)) as (n & E & H). exists n. unfold trim_end_matches.
  rewrite rev_involutive. split; [|exact H].
  rewrite <- (rev_involutive s), E at 1. rewrite rev_app_distr, rev_repeat. reflexivity.
Qed.
Lemma trim_end_hd c s : hd_error s <> Some c -> hd_error (trim_end_matches c s) <> Some c.
Proof.
  destruct (trim_end_spec c s) as (n & E & H). intros H' H''.
  destruct (trim_end_matches c s) as [|x r] eqn:Er; [discriminate|].
  apply H'. rewrite E. exact H''.
Qed.
Lemma trim_modify_trimmed s : trimmed s (trim_modify s).
Proof.
  unfold trim_modify, trim_matches.
  destruct (trim_start_spec SPACE s) as (a & E1 & H1).
  destruct (trim_end_spec SPACE (trim_start_matches SPACE s)) as (b & E2 & H2).
  split; [|split].
  - apply trim_end_hd. exact H1.
  - exact H2.
  - exists a, b. rewrite E1 at 1. f_equal. exact E2.
Qed.

Lemma repeat_app_inj c n m (s t : str) : hd_error s <> Some c -> hd_error t <> Some c ->
  repeat c n ++ s = repeat c m ++ t -> n = m /\ s = t.
Proof.
  revert m; induction n as [|n IH]; intros m Hs Ht E.
  - destruct m as [|m]; [auto|]. simpl in E. subst s. simpl in Hs. congruence.
  - destruct m as [|m]; simpl in E; [subst t; simpl in Ht; congruence|].
    inversion E as [E']. destruct (IH m Hs Ht E') as [-> ->]. auto.
Qed.
Lemma trimmed_unique s out out' : trimmed s out -> trimmed s out' -> out = out'.
Proof.
  assert (G : forall o, trimmed s o ->
     exists t k, s = repeat space k ++ t /\ hd_error t <> Some space /\ exists b, t = o ++ repeat space b /\ (o = [] -> b = 0)).
  { intros o (H1 & H2 & a & b & E). destruct o as [|x o].
    - exists [], (a + b). split; [|split; [discriminate|]].
      + rewrite E. simpl. rewrite repeat_app, app_nil_r. reflexivity.
      + exists 0. auto.
    - exists ((x :: o) ++ repeat space b), a. split; [exact E|]. split; [exact H1|]. exists b. split; [reflexivity|discriminate]. }
  intros T T'. destruct (G _ T) as (t & k & E & Ht & b & Eb & _), (G _ T') as (t' & k' & E' & Ht' & b' & Eb' & _).
  rewrite E in E'. apply repeat_app_inj in E'; auto. destruct E' as [_ ->].
  rewrite Eb in Eb'. apply (f_equal (@rev _)) in Eb'. rewrite !rev_app_distr, !rev_repeat in Eb'.
  destruct T as (_ & T2 & _), T' as (_ & T2' & _).
  apply repeat_app_inj in Eb'; auto. destruct Eb' as [_ Er].
  rewrite <- (rev_involutive out), Er, rev_involutive. reflexivity.
Qed.
