From Verif Require Import Base BaseFacts Utf8 StrOps Corr Position Table Converter.

Definition N_eqb_eq := N.eqb_eq.

(** ** Vector stores *)
Lemma vec_set_ok {A} (l : list A) i x :
  i < length l ->
  exists l', vec_set l i x = Ok l' /\ length l' = length l /\
    forall j, nth_error l' j = if Nat.eqb j i then Some x else nth_error l j.
Proof.
  revert i; induction l as [|y l IH]; intros i Hi; simpl in *; [lia|].
  destruct i as [|i]; simpl.
  - exists (x :: l). repeat split. intros [|j]; reflexivity.
  - destruct (IH i) as (l' & E & Hl & Hn); [lia|]. rewrite E. simpl.
    exists (y :: l'). repeat split; [simpl; lia|].
    intros [|j]; simpl; [reflexivity|apply Hn].
Qed.

Lemma write_all_ok refs idx t :
  (forall i, In i idx -> i < length refs) ->
  exists refs', write_all refs idx t = Ok refs' /\ length refs' = length refs /\
    forall j, nth_error refs' j = if mem Nat.eqb j idx then Some t else nth_error refs j.
Proof.
  revert refs; induction idx as [|i idx IH]; intros refs H; simpl.
  - exists refs. auto.
  - destruct (vec_set_ok refs i t) as (r1 & E1 & L1 & N1); [apply H; left; reflexivity|].
    rewrite E1. simpl.
    destruct (IH r1) as (r2 & E2 & L2 & N2).
    { intros k Hk. rewrite L1. apply H. right; exact Hk. }
    exists r2. rewrite E2. repeat split; [congruence|].
    intros j. rewrite N2, N1.
    unfold mem; simpl. destruct (Nat.eqb j i); simpl; destruct (existsb (Nat.eqb j) idx); reflexivity.
Qed.

Definition conv1 (cc : converter) (c : char) : char :=
  match conv_get cc c with Some t => t | None => c end.

(** ** The conversion loop, for entries in any order *)
Definition covered (entries : list (char * list nat)) (j : nat) : bool :=
  existsb (fun e => mem Nat.eqb j (snd e)) entries.

Lemma convert_loop_ok cc input entries refs :
  length refs = length input ->
  (forall c idx i, In (c, idx) entries -> In i idx -> nth_error input i = Some c) ->
  exists refs', convert_loop cc entries refs = Ok refs' /\ length refs' = length input /\
    forall j c, nth_error input j = Some c ->
      nth_error refs' j = if covered entries j then
                            match conv_get cc c with Some t => Some t | None => nth_error refs j end
                          else nth_error refs j.
Proof.
  revert refs; induction entries as [|[c0 idx] entries IH]; intros refs Hlen Hidx; cbn [convert_loop covered existsb].
  - exists refs. auto.
  - assert (Hidx' : forall c idx i, In (c, idx) entries -> In i idx -> nth_error input i = Some c)
      by (intros; eapply Hidx; [right|]; eassumption).
    assert (H0 : forall i, In i idx -> nth_error input i = Some c0)
      by (intros; eapply Hidx; [left; reflexivity|assumption]).
    destruct (conv_get cc c0) as [t|] eqn:Eg; cbn [bind].
    + destruct (write_all_ok refs idx t) as (r1 & E1 & L1 & N1).
      { intros i Hi. rewrite Hlen. apply nth_error_Some. rewrite (H0 i Hi). discriminate. }
      rewrite E1. cbn [bind].
      destruct (IH r1) as (r2 & E2 & L2 & N2); [congruence|exact Hidx'|].
      exists r2. rewrite E2. repeat split; [exact L2|].
      intros j c Hj. rewrite (N2 j c Hj), N1. fold (covered entries j). cbn [snd].
      destruct (mem Nat.eqb j idx) eqn:Em; cbn [orb].
      * assert (Hc : c = c0).
        { apply (mem_In Nat.eqb Nat.eqb_eq) in Em. rewrite (H0 j Em) in Hj. congruence. }
        subst c0. rewrite Eg. destruct (covered entries j); reflexivity.
      * reflexivity.
    + destruct (IH refs) as (r2 & E2 & L2 & N2); [exact Hlen|exact Hidx'|].
      exists r2. rewrite E2. repeat split; [exact L2|].
      intros j c Hj. rewrite (N2 j c Hj). fold (covered entries j). cbn [snd].
      destruct (mem Nat.eqb j idx) eqn:Em; cbn [orb]; [|reflexivity].
      assert (Hc : c = c0).
      { apply (mem_In Nat.eqb Nat.eqb_eq) in Em. rewrite (H0 j Em) in Hj. congruence. }
      subst c0. rewrite Eg. destruct (covered entries j); reflexivity.
Qed.

(** ** The index map *)
Lemma entry_update_In {V} (c : char) d (f : V -> V) m x v :
  In (x, v) (hm_entry_update N.eqb c d f m) ->
  (In (x, v) m) \/ (x = c /\ (v = f d \/ exists v0, In (c, v0) m /\ v = f v0)).
Proof.
  induction m as [|[k v0] m IH]; simpl.
  - intros [H|[]]. inversion H; subst. right. auto.
  - destruct (N.eqb c k) eqn:E.
    + apply N.eqb_eq in E. subst k. intros [H|H].
      * inversion H; subst. right. split; [reflexivity|]. right. exists v0. auto.
      * left; right; exact H.
    + intros [H|H]; [left; left; exact H|].
      destruct (IH H) as [H1|(H1 & [H2|(v1 & H2 & H3)])].
      * left; right; exact H1.
      * right; split; [exact H1|left; exact H2].
      * right; split; [exact H1|right; exists v1; auto].
Qed.

Lemma entry_update_keep {V} (c : char) d (f : V -> V) m x v :
  In (x, v) m -> exists v', In (x, v') (hm_entry_update N.eqb c d f m) /\ (v' = v \/ (x = c /\ v' = f v)).
Proof.
  induction m as [|[k v0] m IH]; simpl; [intros []|].
  intros [H|H].
  - inversion H; subst. destruct (N.eqb c x) eqn:E.
    + apply N.eqb_eq in E. subst. exists (f v). split; [left; reflexivity|right; auto].
    + exists v. split; [left; reflexivity|left; reflexivity].
  - destruct (IH H) as (v' & H1 & H2). destruct (N.eqb c k) eqn:E.
    + exists v. split; [right; exact H|left; reflexivity].
    + exists v'. split; [right; exact H1|exact H2].
Qed.

Lemma entry_update_new {V} (c : char) d (f : V -> V) m :
  exists v, In (c, f v) (hm_entry_update N.eqb c d f m).
Proof.
  induction m as [|[k v0] m (v & IH)]; simpl.
  - exists d. left; reflexivity.
  - destruct (N.eqb c k) eqn:E.
    + apply N.eqb_eq in E. subst. exists v0. left; reflexivity.
    + exists v. right; exact IH.
Qed.

Lemma enumerate_from_app {A} i (a b : list A) :
  enumerate_from i (a ++ b) = enumerate_from i a ++ enumerate_from (i + length a) b.
Proof.
  revert i; induction a as [|x a IH]; intros i; simpl.
  - rewrite Nat.add_0_r. reflexivity.
  - rewrite IH. do 3 f_equal. lia.
Qed.
Lemma enumerate_from_In {A} i (l : list A) k x :
  In (k, x) (enumerate_from i l) <-> (i <= k /\ nth_error l (k - i) = Some x).
Proof.
  revert i; induction l as [|y l IH]; intros i; simpl.
  - split; [intros []|intros [_ H]; destruct (k - i); discriminate].
  - rewrite IH. split.
    + intros [H|[H1 H2]].
      * inversion H; subst. rewrite Nat.sub_diag. auto.
      * split; [lia|]. replace (k - i) with (S (k - S i)) by lia. exact H2.
    + intros [H1 H2]. destruct (Nat.eq_dec k i) as [->|Hne].
      * left. rewrite Nat.sub_diag in H2. simpl in H2. congruence.
      * right. split; [lia|]. replace (k - i) with (S (k - S i)) in H2 by lia. exact H2.
Qed.
Lemma enumerate_In {A} (l : list A) k x : In (k, x) (enumerate l) <-> nth_error l k = Some x.
Proof. unfold enumerate. rewrite enumerate_from_In, Nat.sub_0_r. intuition lia. Qed.

Definition ic_step (m : list (char * list nat)) (ic : nat * char) :=
  hm_entry_update N.eqb (snd ic) [] (fun v => v ++ [fst ic]) m.


Lemma index_fold_sound (P : nat -> char -> Prop) l m :
  (forall i c, In (i, c) l -> P i c) ->
  (forall c idx i, In (c, idx) m -> In i idx -> P i c) ->
  forall c idx i, In (c, idx) (fold_left ic_step l m) -> In i idx -> P i c.
Proof.
  revert m; induction l as [|[k c0] l IH]; simpl; intros m Hl Hm; [exact Hm|].
  apply IH; [intros; apply Hl; right; assumption|].
  intros c idx i Hin Hi. unfold ic_step in Hin. simpl in Hin.
  destruct (entry_update_In _ _ _ _ _ _ Hin) as [H|(H1 & [H2|(v0 & H2 & H3)])].
  - eapply Hm; eassumption.
  - subst. destruct Hi as [<-|[]]. apply Hl. left; reflexivity.
  - subst. apply in_app_or in Hi. destruct Hi as [Hi|[<-|[]]].
    + eapply Hm; eassumption.
    + apply Hl. left; reflexivity.
Qed.

Lemma index_fold_complete l m i c :
  In (i, c) l \/ (exists idx, In (c, idx) m /\ In i idx) ->
  exists idx, In (c, idx) (fold_left ic_step l m) /\ In i idx.
Proof.
  revert m; induction l as [|[k c0] l IH]; simpl; intros m [H|H]; try contradiction.
  - exact H.
  - destruct H as [H|H].
    + inversion H; subst. apply IH. right. unfold ic_step. simpl.
      destruct (entry_update_new c [] (fun v => v ++ [i]) m) as (v & Hv).
      exists (v ++ [i]). split; [exact Hv|apply in_or_app; right; left; reflexivity].
    + apply IH. left; exact H.
  - apply IH. right. destruct H as (idx & H1 & H2). unfold ic_step. simpl.
    destruct (entry_update_keep c0 [] (fun v => v ++ [k]) m c idx H1) as (v' & H3 & [->|[_ ->]]).
    + exists idx. auto.
    + exists (idx ++ [k]). split; [exact H3|apply in_or_app; left; exact H2].
Qed.

Lemma index_chars_sound input c idx i :
  In (c, idx) (index_chars input) -> In i idx -> nth_error input i = Some c.
Proof.
  unfold index_chars. apply (index_fold_sound (fun i c => nth_error input i = Some c)).
  - intros i' c' H. apply enumerate_In in H. exact H.
  - intros ? ? ? [].
Qed.
Lemma index_chars_complete input i c :
  nth_error input i = Some c -> exists idx, In (c, idx) (index_chars input) /\ In i idx.
Proof.
  intros H. unfold index_chars. apply (index_fold_complete (enumerate input) []).
  left. apply enumerate_In. exact H.
Qed.

Lemma list_nth_ext {A} (l l' : list A) :
  length l = length l' -> (forall i x, nth_error l i = Some x -> nth_error l' i = Some x) -> l = l'.
Proof.
  revert l'; induction l as [|x l IH]; intros [|y l'] Hlen H; simpl in *; try discriminate; [reflexivity|].
  assert (E := H 0 x eq_refl). simpl in E. inversion E; subst. f_equal.
  apply IH; [lia|]. intros i z Hz. exact (H (S i) z Hz).
Qed.

Lemma conv_modify_eq o cc input : conv_modify o cc input = Ok (map (conv1 cc) input).
Proof.
  unfold conv_modify.
  pose proof (hash_iter_perm o (index_chars input)) as HP.
  destruct (convert_loop_ok cc input (hash_iter o (index_chars input)) input eq_refl) as (r & E & L & Nn).
  { intros c idx i H. apply index_chars_sound. eapply Permutation_in; [symmetry; exact HP|exact H]. }
  rewrite E. f_equal. symmetry. apply list_nth_ext.
  - rewrite map_length. congruence.
  - intros i x Hx. rewrite nth_error_map in Hx.
    destruct (nth_error input i) as [c|] eqn:Ei; simpl in Hx; [|discriminate].
    inversion Hx; subst. rewrite (Nn i c Ei).
    assert (Hc : covered (hash_iter o (index_chars input)) i = true).
    { apply existsb_exists. destruct (index_chars_complete input i c Ei) as (idx & H1 & H2).
      exists (c, idx). split; [eapply Permutation_in; eassumption|].
      apply (mem_In Nat.eqb Nat.eqb_eq). exact H2. }
    rewrite Hc. unfold conv1. destruct (conv_get cc c); [reflexivity|exact Ei].
Qed.

(** ** Positions *)
Definition cp_pairs (cp : char_pos) : list (nat * nat) := combine (cp_indices cp) (cp_utf8_indices cp).
Definition pos_for (c t : char) (iu : nat * nat) : position :=
  Pos [c] [t] (fst iu) (len_utf8 c) (snd iu) 1.
Definition entry_positions (cc : converter) (e : char * char_pos) : list position :=
  match conv_get cc (fst e) with
  | Some t => map (pos_for (fst e) t) (cp_pairs (snd e))
  | None => []
  end.
Definition wf_cp (e : char * char_pos) : Prop :=
  cp_length (snd e) = len_utf8 (fst e) /\ length (cp_indices (snd e)) = length (cp_utf8_indices (snd e)).

Lemma write_positions_ok c t cp st (pre : list nat) (idx : list nat) (upre us : list nat) :
  cp_utf8_indices cp = upre ++ us -> length pre = length upre -> length idx = length us ->
  cp_length cp = len_utf8 c ->
  (forall i, In i idx -> i < length (fst st)) ->
  exists refs', write_positions c t cp (enumerate_from (length pre) idx) st =
    Ok (refs', snd st ++ map (pos_for c t) (combine idx us)) /\
    write_all (fst st) idx t = Ok refs'.
Proof.
  revert st pre upre us; induction idx as [|i idx IH]; intros [refs ps] pre upre us Hu Hl Hl2 Hc Hr; cbn [enumerate_from write_positions].
  - exists refs. simpl. rewrite app_nil_r. auto.
  - destruct us as [|u us]; [simpl in Hl2; discriminate|].
    destruct (vec_set_ok refs i t) as (r1 & E1 & L1 & N1); [apply Hr; left; reflexivity|].
    cbn [fst snd]. rewrite E1. cbn [bind].
    assert (Hn : nth_error (cp_utf8_indices cp) (length pre) = Some u).
    { rewrite Hu, Hl, nth_error_app2, Nat.sub_diag by lia. reflexivity. }
    rewrite Hn. cbn [unwrap bind].
    destruct (IH (r1, ps ++ [position_new [c] [t] i u (cp_length cp) UTF8_LEN]) (pre ++ [i]) (upre ++ [u]) us)
      as (r2 & E2 & W2).
    + rewrite Hu, <- app_assoc. reflexivity.
    + rewrite !app_length. simpl. lia.
    + simpl in Hl2. lia.
    + exact Hc.
    + intros k Hk. cbn [fst]. rewrite L1. apply Hr. right; exact Hk.
    + rewrite app_length in E2. cbn [length] in E2. rewrite Nat.add_1_r in E2.
      exists r2. rewrite E2. cbn [snd fst]. split.
      * rewrite <- app_assoc. cbn [app combine map]. unfold pos_for at 2. cbn [fst snd].
        unfold position_new, UTF8_LEN. rewrite Hc. reflexivity.
      * cbn [write_all]. rewrite E1. exact W2.
Qed.

Definition strip (e : char * char_pos) : char * list nat := (fst e, cp_indices (snd e)).

Lemma convert_pos_loop_ok cc input entries st :
  length (fst st) = length input ->
  (forall e, In e entries -> wf_cp e) ->
  (forall c cp i, In (c, cp) entries -> In i (cp_indices cp) -> nth_error input i = Some c) ->
  exists refs', convert_pos_loop cc entries st =
     Ok (refs', snd st ++ flat_map (entry_positions cc) entries) /\
     convert_loop cc (map strip entries) (fst st) = Ok refs'.
Proof.
  revert st; induction entries as [|[c cp] entries IH]; intros [refs ps] Hlen Hwf Hidx;
    cbn [convert_pos_loop flat_map map strip convert_loop fst snd] in *.
  - exists refs. rewrite app_nil_r. auto.
  - assert (Hidx' : forall c cp i, In (c, cp) entries -> In i (cp_indices cp) -> nth_error input i = Some c)
      by (intros; eapply Hidx; [right|]; eassumption).
    assert (Hwf' : forall e, In e entries -> wf_cp e) by (intros; apply Hwf; right; assumption).
    destruct (Hwf (c, cp) (or_introl eq_refl)) as [W1 W2]. cbn [fst snd] in W1, W2.
    unfold entry_positions at 1. cbn [fst snd].
    destruct (conv_get cc c) as [t|] eqn:Eg; cbn [bind].
    + assert (Hrange : forall i, In i (cp_indices cp) -> i < length refs).
      { intros i Hi. rewrite Hlen. apply nth_error_Some.
        rewrite (Hidx c cp i (or_introl eq_refl) Hi). discriminate. }
      destruct (write_positions_ok c t cp (refs, ps) [] (cp_indices cp) [] (cp_utf8_indices cp))
        as (r1 & E1 & A1); auto.
      unfold enumerate. cbn [length] in E1. rewrite E1. cbn [bind fst snd] in *. rewrite A1. cbn [bind].
      destruct (write_all_ok refs (cp_indices cp) t Hrange) as (r1' & A1' & L1 & _).
      rewrite A1 in A1'. inversion A1'; subst r1'.
      destruct (IH (r1, ps ++ map (pos_for c t) (combine (cp_indices cp) (cp_utf8_indices cp))))
        as (r2 & E2 & A2); cbn [fst]; auto; [congruence|].
      exists r2. rewrite E2. cbn [fst snd] in *. split; [|exact A2].
      rewrite <- app_assoc. reflexivity.
    + destruct (IH (refs, ps)) as (r2 & E2 & A2); auto.
      exists r2. cbn [fst snd] in *. rewrite E2. split; [reflexivity|exact A2].
Qed.

Definition icp_step (m : list (char * char_pos)) (x : nat * (nat * char)) :=
  let '(index, (i, c)) := x in
  hm_entry_update N.eqb c (char_pos_new (len_utf8 c)) (push_indexes index i) m.

Lemma icp_wf l m :
  (forall e, In e m -> wf_cp e) -> forall e, In e (fold_left icp_step l m) -> wf_cp e.
Proof.
  revert m; induction l as [|[k [b c]] l IH]; cbn [fold_left]; intros m Hm; [exact Hm|].
  apply IH. intros [x v] Hin. unfold icp_step in Hin.
  destruct (entry_update_In _ _ _ _ _ _ Hin) as [H|(H1 & [H2|(v0 & H2 & H3)])].
  - apply Hm, H.
  - subst. split; reflexivity.
  - subst. destruct (Hm _ H2) as [W1 W2]. cbn [fst snd] in *.
    split; cbn [fst snd push_indexes cp_length cp_indices cp_utf8_indices]; [exact W1|].
    rewrite !app_length. simpl. lia.
Qed.

Lemma strip_update m k b c :
  map strip (icp_step m (k, (b, c))) = ic_step (map strip m) (k, c).
Proof.
  unfold icp_step, ic_step. cbn [fst snd].
  induction m as [|[x v] m IH]; cbn [hm_entry_update map strip fst snd]; [reflexivity|].
  destruct (N.eqb c x); cbn [map strip fst snd]; [reflexivity|]. rewrite <- IH. reflexivity.
Qed.

Lemma strip_fold (l : list (nat * (nat * char))) m :
  map strip (fold_left icp_step l m) =
  fold_left ic_step (map (fun x => (fst x, snd (snd x))) l) (map strip m).
Proof.
  revert m; induction l as [|[k [b c]] l IH]; intros m; cbn [fold_left map]; [reflexivity|].
  rewrite IH, strip_update. reflexivity.
Qed.

Lemma enumerate_char_indices s k b :
  map (fun x : nat * (nat * char) => (fst x, snd (snd x))) (enumerate_from k (char_indices_from b s)) =
  enumerate_from k s.
Proof.
  revert k b; induction s as [|c s IH]; intros k b; cbn; [reflexivity|]. rewrite IH. reflexivity.
Qed.

Lemma strip_index_char_pos s : map strip (index_char_pos s) = index_chars s.
Proof.
  unfold index_char_pos, index_chars. change (fun m x => _) with icp_step at 1.
  rewrite strip_fold. unfold enumerate, char_indices. rewrite enumerate_char_indices. reflexivity.
Qed.

(** The positions a converter reports, in text order. *)
Definition spec_positions (cc : converter) (s : str) : list position :=
  flat_map (fun x : nat * (nat * char) =>
              match conv_get cc (snd (snd x)) with
              | Some t => [pos_for (snd (snd x)) t (fst x, fst (snd x))]
              | None => []
              end) (enumerate (char_indices s)).

Lemma entry_positions_perm cc l m :
  (forall e, In e m -> wf_cp e) ->
  Permutation (flat_map (entry_positions cc) (fold_left icp_step l m))
    (flat_map (entry_positions cc) m ++
     flat_map (fun x : nat * (nat * char) =>
              match conv_get cc (snd (snd x)) with
              | Some t => [pos_for (snd (snd x)) t (fst x, fst (snd x))]
              | None => []
              end) l).
Proof.
  revert m; induction l as [|[k [b c]] l IH]; intros m Hm; cbn [fold_left flat_map fst snd].
  - rewrite app_nil_r. reflexivity.
  - assert (Hm' : forall e, In e (icp_step m (k, (b, c))) -> wf_cp e).
    { intros e He. apply (icp_wf [(k, (b, c))] m Hm). exact He. }
    etransitivity; [apply (IH _ Hm')|].
    rewrite app_assoc. apply Permutation_app_tail.
    clear IH l Hm'. unfold icp_step.
    induction m as [|[x v] m IHm]; cbn [hm_entry_update flat_map].
    + unfold entry_positions. cbn [fst snd]. rewrite app_nil_r.
      destruct (conv_get cc c); cbn; reflexivity.
    + destruct (N.eqb c x) eqn:E; cbn [flat_map].
      * apply N.eqb_eq in E. subst x.
        destruct (Hm (c, v) (or_introl eq_refl)) as [W1 W2]. cbn [fst snd] in *.
        unfold entry_positions at 1 3. cbn [fst snd].
        destruct (conv_get cc c) as [t|]; [|rewrite app_nil_r; reflexivity].
        unfold cp_pairs, push_indexes. cbn [cp_indices cp_utf8_indices].
        assert (Hcomb : combine (cp_indices v ++ [k]) (cp_utf8_indices v ++ [b]) =
                        combine (cp_indices v) (cp_utf8_indices v) ++ [(k, b)]).
        { revert W2. generalize (cp_indices v) as l1, (cp_utf8_indices v) as l2.
          induction l1 as [|a1 l1 IH1]; intros [|a2 l2] HH; cbn in *; try discriminate; [reflexivity|].
          rewrite IH1 by lia. reflexivity. }
        rewrite Hcomb, map_app. cbn [map].
        rewrite <- !app_assoc. apply Permutation_app_head. apply Permutation_app_comm.
      * rewrite <- app_assoc. apply Permutation_app_head. apply IHm.
        intros e He. apply Hm. right; exact He.
Qed.

Lemma conv_positions_eq o cc s :
  exists ps, conv_modify_with_positions o cc s = Ok (map (conv1 cc) s, ps) /\
             Permutation ps (spec_positions cc s).
Proof.
  unfold conv_modify_with_positions.
  pose proof (hash_iter_perm o (index_char_pos s)) as HP.
  set (es := hash_iter o (index_char_pos s)) in *.
  assert (Hwf : forall e, In e (index_char_pos s) -> wf_cp e).
  { unfold index_char_pos. apply icp_wf. intros e []. }
  assert (Hidx : forall c cp i, In (c, cp) es -> In i (cp_indices cp) -> nth_error s i = Some c).
  { intros c cp i H Hi. eapply (index_chars_sound s c (cp_indices cp)); [|exact Hi].
    rewrite <- strip_index_char_pos. apply (in_map strip (index_char_pos s) (c, cp)).
    eapply Permutation_in; [symmetry; exact HP|exact H]. }
  destruct (convert_pos_loop_ok cc s es (s, [])) as (r & E & A); auto.
  { intros e He. apply Hwf. eapply Permutation_in; [symmetry; exact HP|exact He]. }
  cbn [fst snd] in *. rewrite E. exists (flat_map (entry_positions cc) es). split.
  - f_equal. f_equal.
    destruct (convert_loop_ok cc s (map strip es) s eq_refl) as (r' & E' & L & Nn).
    { intros c idx i H Hi. apply in_map_iff in H. destruct H as ([c' cp] & H1 & H2).
      unfold strip in H1. cbn [fst snd] in H1. inversion H1; subst. eapply Hidx; eassumption. }
    rewrite A in E'. inversion E'; subst r'. symmetry. apply list_nth_ext.
    + rewrite map_length. congruence.
    + intros i x Hx. rewrite nth_error_map in Hx.
      destruct (nth_error s i) as [c|] eqn:Ei; simpl in Hx; [|discriminate].
      inversion Hx; subst. rewrite (Nn i c Ei).
      assert (Hc : covered (map strip es) i = true).
      { apply existsb_exists. destruct (index_chars_complete s i c Ei) as (idx & H1 & H2).
        exists (c, idx). split.
        - rewrite <- strip_index_char_pos in H1. apply in_map_iff in H1.
          destruct H1 as (e & He1 & He2). rewrite <- He1. apply in_map.
          eapply Permutation_in; eassumption.
        - apply (mem_In Nat.eqb Nat.eqb_eq). exact H2. }
      rewrite Hc. unfold conv1. destruct (conv_get cc c); [reflexivity|exact Ei].
  - unfold spec_positions.
    etransitivity; [|apply (entry_positions_perm cc (enumerate (char_indices s)) [])].
    + apply Permutation_flat_map. symmetry. exact HP.
    + intros e [].
Qed.
