(** Lemmas for C101: the modifiers on a text read backwards. *)
From Verif Require Import Base StrOps Reducer Dotted Ligature TrimMod Neologdn Spec BaseFacts SimpleFacts LigFacts CharsetFacts
  NeoFacts NeoProps EditSpec EditLig BackSpec.

(** ** Reducing a character *)
Fixpoint ends (c : char) (b : bool) (s : str) : bool := match s with [] => b | x :: r => ends c (N.eqb c x) r end.
Lemma ends_snoc c b s x : ends c b (s ++ [x]) = N.eqb c x.
Proof. revert b. induction s as [|y s IH]; intros b; cbn [app ends]; [reflexivity|apply IH]. Qed.
Lemma red_snoc c b s x : red_rec c b (s ++ [x]) = red_rec c b s ++ (if N.eqb c x then (if ends c b s then [] else [x]) else [x]).
Proof.
  revert b. induction s as [|y s IH]; intros b; cbn [app red_rec ends].
  - destruct (N.eqb c x), b; reflexivity.
  - destruct (N.eqb c y), b; rewrite IH; reflexivity.
Qed.
Definition starts (c : char) (s : str) : bool := match s with [] => false | x :: _ => N.eqb c x end.
Lemma red_true c s : red_rec c false s = (if starts c s then [c] else []) ++ red_rec c true s.
Proof. destruct s as [|x s]; cbn [red_rec starts app]; [reflexivity|]. destruct (N.eqb_spec c x) as [->|]; reflexivity. Qed.
Lemma ends_rev c s : ends c false (rev s) = starts c s.
Proof. destruct s as [|x s]; cbn [rev starts]; [reflexivity|apply ends_snoc]. Qed.
Lemma red_rev c s : red_modify c (rev s) = rev (red_modify c s).
Proof.
  rewrite !red_modify_rec. induction s as [|x s IH]; [reflexivity|]. cbn [rev]. rewrite red_snoc, ends_rev, IH. cbn [red_rec].
  destruct (N.eqb_spec c x) as [<-|]; [|reflexivity]. cbn [rev]. rewrite red_true. destruct (starts c s); cbn [app rev]; [|reflexivity]. rewrite app_nil_r. reflexivity.
Qed.

(** ** Removing spaces *)
Fixpoint final (p : char) (sp : bool) (s : str) : char * bool :=
  match s with
  | [] => (p, sp)
  | c :: r => if N.eqb c SPACE then final c (if is_ascii_alphanumeric p then true else sp) r else final c false r
  end.
Lemma final_snoc p sp s x : final p sp (s ++ [x]) =
  if N.eqb x SPACE then (x, if is_ascii_alphanumeric (fst (final p sp s)) then true else snd (final p sp s)) else (x, false).
Proof.
  revert p sp. induction s as [|c s IH]; intros p sp; cbn [app final]; [destruct (N.eqb x SPACE); reflexivity|].
  destruct (N.eqb c SPACE); apply IH.
Qed.
Lemma dot_snoc p sp s x : dot_rec p sp (s ++ [x]) = dot_rec p sp s ++
  (if N.eqb x SPACE then [] else (if snd (final p sp s) then (if is_ascii_alphanumeric x then [SPACE] else []) else []) ++ [x]).
Proof.
  revert p sp. induction s as [|c s IH]; intros p sp; cbn [app dot_rec final snd].
  - destruct (N.eqb x SPACE); reflexivity.
  - destruct (N.eqb c SPACE); rewrite IH; [reflexivity|]. rewrite <- app_assoc. reflexivity.
Qed.
(** A text that begins with spaces and goes on with a letter or digit. *)
Fixpoint after (s : str) : bool :=
  match s with [] => false | c :: r => if N.eqb c SPACE then after r else is_ascii_alphanumeric c end.
Definition waits (s : str) : bool := match s with [] => false | c :: r => if N.eqb c SPACE then after r else false end.
Lemma alnum_space : is_ascii_alphanumeric SPACE = false.
Proof. reflexivity. Qed.
Lemma final_rev s : final SPACE false (rev s) = (match s with [] => SPACE | c :: _ => c end, waits s).
Proof.
  induction s as [|x s IH]; [reflexivity|]. cbn [rev]. rewrite final_snoc, IH. cbn [fst snd waits]. destruct (N.eqb x SPACE); [|reflexivity]. f_equal.
  destruct s as [|y s]; [reflexivity|]. cbn [after waits]. destruct (N.eqb_spec y SPACE) as [->|]; [rewrite alnum_space; reflexivity|]. destruct (is_ascii_alphanumeric y); reflexivity.
Qed.
Lemma dot_flag b s : dot_rec SPACE b s = (if b && after s then [SPACE] else [])%bool ++ dot_rec SPACE false s.
Proof.
  revert b. induction s as [|c s IH]; intros b; cbn [dot_rec after]; [rewrite Bool.andb_false_r; reflexivity|].
  destruct (N.eqb_spec c SPACE) as [->|].
  - rewrite alnum_space. apply IH.
  - destruct b, (is_ascii_alphanumeric c); reflexivity.
Qed.
Lemma dot_prev x s : dot_rec x false s = (if is_ascii_alphanumeric x && waits s then [SPACE] else [])%bool ++ dot_rec SPACE false s.
Proof.
  destruct s as [|c s]; cbn [dot_rec waits]; [rewrite Bool.andb_false_r; reflexivity|].
  destruct (N.eqb_spec c SPACE) as [->|]; [|rewrite Bool.andb_false_r; reflexivity].
  rewrite alnum_space. rewrite dot_flag. destruct (is_ascii_alphanumeric x); reflexivity.
Qed.
Lemma dot_rev s : dot_modify (rev s) = rev (dot_modify s).
Proof.
  rewrite !dot_modify_rec. induction s as [|x s IH]; [reflexivity|]. cbn [rev]. rewrite dot_snoc, final_rev, IH. cbn [snd dot_rec].
  destruct (N.eqb_spec x SPACE) as [->|].
  - rewrite alnum_space, app_nil_r. reflexivity.
  - cbn [app rev]. rewrite (dot_prev x). destruct (waits s), (is_ascii_alphanumeric x); cbn [andb app rev]; rewrite <- ?app_assoc; reflexivity.
Qed.

(** ** Trimming *)
Lemma rev_repeat (c : char) n : rev (repeat c n) = repeat c n.
Proof. induction n as [|n IH]; [reflexivity|]. cbn [repeat rev]. rewrite IH. symmetry. apply repeat_cons. Qed.
Lemma trimmed_rev s out : trimmed s out -> trimmed (rev s) (rev out).
Proof.
  intros (A & B & a & b & ->). repeat split; [exact B|rewrite rev_involutive; exact A|]. exists b, a.
  rewrite !rev_app_distr, !rev_repeat, <- app_assoc. reflexivity.
Qed.
Lemma trim_rev s : trim_modify (rev s) = rev (trim_modify s).
Proof. eapply trimmed_unique; [apply trim_modify_trimmed|apply trimmed_rev, trim_modify_trimmed]. Qed.

Lemma filter_rev (f : char -> bool) s : filter f (rev s) = rev (filter f s).
Proof.
  induction s as [|x s IH]; [reflexivity|]. cbn [rev filter]. rewrite filter_app, IH. cbn [filter]. destruct (f x); cbn [rev]; [reflexivity|apply app_nil_r].
Qed.

(** ** Ligature maps *)
Lemma occurs_rev (k s : str) i : occurs_at k s i -> occurs_at (rev k) (rev s) (length s - (i + length k)).
Proof.
  intros (a & b & -> & <-). exists (rev b), (rev a). rewrite !rev_app_distr, <- app_assoc. split; [reflexivity|]. rewrite rev_length, !app_length. lia.
Qed.
Lemma occurs_bound (k s : str) i : occurs_at k s i -> i + length k <= length s.
Proof. intros (a & b & -> & <-). rewrite !app_length. lia. Qed.
Lemma back_In l k v : In (k, v) (backward_map l) <-> In (rev k, rev v) l.
Proof.
  unfold backward_map. rewrite in_map_iff. split.
  - intros ((k' & v') & E & H). cbn [fst snd] in E. injection E as <- <-. rewrite !rev_involutive. exact H.
  - intros H. exists (rev k, rev v). cbn [fst snd]. rewrite !rev_involutive. auto.
Qed.
Lemma rev_inj (a b : str) : rev a = rev b -> a = b.
Proof. intros E. apply (f_equal (@rev _)) in E. rewrite !rev_involutive in E. exact E. Qed.
Lemma back_nodup l : NoDup (map fst l) -> NoDup (map fst (backward_map l)).
Proof.
  intros H. replace (map fst (backward_map l)) with (map (@rev char) (map fst l)) by (unfold backward_map; rewrite !map_map; reflexivity).
  apply FinFun.Injective_map_NoDup; [intros a b; apply rev_inj|exact H].
Qed.
Lemma rev_nil (k : str) : rev k <> [] -> k <> [].
Proof. intros H ->. apply H. reflexivity. Qed.
Lemma back_non_interfering l : non_interfering l -> non_interfering (backward_map l).
Proof.
  intros (A & B & C). repeat split.
  - apply back_In in H. apply A in H as [H _]. apply rev_nil, H.
  - apply back_In in H. apply A in H as [_ H]. apply rev_nil, H.
  - intros k v k' v' H H' D s i j O O'. apply back_In in H. apply back_In in H'.
    pose proof (occurs_bound _ _ _ O). pose proof (occurs_bound _ _ _ O'). apply occurs_rev in O. apply occurs_rev in O'.
    assert (D' : rev k <> rev k') by (intros E; apply D, rev_inj, E).
    pose proof (B _ _ _ _ H H' D' _ _ _ O O') as Q. rewrite !rev_length in Q. lia.
  - intros k v k' v' x H H' X X'. apply back_In in H. apply back_In in H'. apply (C _ _ _ _ x H H'); apply in_rev; rewrite rev_involutive; assumption.
Qed.
Lemma back_separate l : separate l -> separate (backward_map l).
Proof.
  intros S s k v k' v' i j H H' O O'. apply back_In in H. apply back_In in H'.
  pose proof (occurs_bound _ _ _ O). pose proof (occurs_bound _ _ _ O'). apply occurs_rev in O. apply occurs_rev in O'.
  destruct (S _ _ _ _ _ _ _ H H' O O') as [[E F]|Q].
  - left. apply rev_inj in E. subst k'. split; [reflexivity|lia].
  - rewrite !rev_length in Q. lia.
Qed.
Lemma replaced_back l s out : NoDup (map fst l) -> non_interfering l -> separate l ->
  replaced (rules l) s out -> replaced (rules (backward_map l)) (rev s) (rev out).
Proof.
  intros ND NI SP H. pose proof (back_nodup l ND) as ND'. pose proof (back_non_interfering l NI) as NI'. pose proof (back_separate l SP) as SP'.
  induction H as [|k v s out Nk Hk H IH|x s out M H IH]; [constructor| |].
  - rewrite !rev_app_distr. set (l' := backward_map l) in *.
    assert (Hk' : In (rev k, rev v) l') by (apply back_In; rewrite !rev_involutive; exact Hk).
    pose proof (lig_replaced o_id l' (rev s ++ rev k) ND' NI') as Z.
    destruct (replaced_cut _ _ _ Z (rev s) (rev k) eq_refl) as (oa & ob & E & Ha & Hb).
    { intros (a & b & (k' & v' & I & O & ->) & L).
      assert (O' : occurs_at (rev k) (rev s ++ rev k) (length (rev s))) by (exists (rev s), []; rewrite app_nil_r; auto).
      destruct (SP' _ _ _ _ _ _ _ I Hk' O O') as [[_ ->]|[?|?]]; lia || (pose proof (occurs_bound _ _ _ O); rewrite app_length in *; lia). }
    rewrite E in Z. assert (oa = rev out) as -> by (eapply replaced_det; [apply (rules_det _ ND' NI')|exact Ha|exact IH]).
    assert (ob = rev v) as ->; [|exact Z].
    eapply replaced_det; [apply (rules_det _ ND' NI')|exact Hb|]. rewrite <- (app_nil_r (rev k)), <- (app_nil_r (rev v)).
    apply rep_hit; [|exact Hk'|constructor]. intros Q. apply Nk. apply rev_inj. exact Q.
  - cbn [rev]. set (l' := backward_map l) in *.
    assert (F : forall k v, In (k, v) l' -> forall w, rev s ++ [x] = w ++ k -> False).
    { intros k v I w E. apply back_In in I. apply (f_equal (@rev _)) in E. rewrite !rev_app_distr, rev_involutive in E. cbn [rev app] in E.
      apply (M _ _ I). exists (rev w). exact E. }
    pose proof (lig_replaced o_id l' (rev s ++ [x]) ND' NI') as Z.
    destruct (replaced_cut _ _ _ Z (rev s) [x] eq_refl) as (oa & ob & E & Ha & Hb).
    { intros (a & b & (k' & v' & I & O & ->) & L). pose proof (occurs_bound _ _ _ O) as Bd. rewrite app_length in Bd. cbn [length] in Bd.
      destruct O as (u & w & Eq & <-). destruct w as [|y w]; [rewrite app_nil_r in Eq; exact (F _ _ I _ Eq)|].
      apply (f_equal (@length _)) in Eq. rewrite !app_length in Eq. cbn [length] in Eq. lia. }
    rewrite E in Z. assert (oa = rev out) as -> by (eapply replaced_det; [apply (rules_det _ ND' NI')|exact Ha|exact IH]).
    assert (ob = [x]) as ->; [|exact Z].
    eapply replaced_det; [apply (rules_det _ ND' NI')|exact Hb|]. apply rep_miss; [|constructor].
    intros k v I (r & Q). destruct k as [|c k]; [destruct (proj1 NI' _ _ I) as [N _]; apply N; reflexivity|].
    injection Q as <- Q. symmetry in Q. apply app_eq_nil in Q as [-> ->]. exact (F _ _ I (rev s) eq_refl).
Qed.

(** ** Composing kana and sound marks *)
Lemma comp_marks k v : composition k v -> exists a m t, k = [a; m] /\ v = [t] /\ composes a m t /\ is_mark a = false /\ is_mark m = true /\ t <> a /\ t <> m.
Proof.
  intros H. destruct (composition_facts _ _ H) as (a & m & t & -> & -> & F).
  assert (I : In ([a; m], [t]) neologdn_lig) by (apply rules_composition, H).
  exists a, m, t. destruct H as (a' & m' & t' & E & E' & C). injection E as <- <-. injection E' as <-.
  repeat split; [exact C|apply (ef_a_mark _ _ _ F)|apply (ef_m_mark _ _ _ F)| |]; intros ->; eapply (ef_t_key _ _ _ F _ _ I); [left|right; left]; reflexivity.
Qed.
Lemma app_length_inj (a a' b b' : str) : length a = length a' -> a ++ b = a' ++ b' -> a = a' /\ b = b'.
Proof.
  revert a'. induction a as [|x a IH]; intros [|x' a'] L E; try discriminate; [auto|]. injection L as L. injection E as <- E.
  destruct (IH _ L E) as [<- <-]. auto.
Qed.
Lemma comp_separate : separate neologdn_lig.
Proof.
  intros s k v k' v' i j I I' (a & b & E & <-) (a' & b' & E' & <-). subst s.
  destruct (lig_entry _ _ I) as (x & m & t & -> & -> & F). destruct (lig_entry _ _ I') as (x' & m' & t' & -> & -> & F').
  cbn [length]. destruct (Nat.lt_trichotomy (length a) (length a')) as [L|[L|L]].
  - destruct (Nat.eq_dec (length a') (S (length a))) as [Q|Q]; [|lia]. exfalso.
    apply (f_equal (fun z => nth_error z (S (length a)))) in E'. rewrite (nth_error_app2 a) in E' by lia. rewrite (nth_error_app2 a') in E' by lia.
    replace (S (length a) - length a) with 1 in E' by lia. replace (S (length a) - length a') with 0 in E' by lia. cbn [nth_error app] in E'. injection E' as E'.
    pose proof (ef_m_mark _ _ _ F). pose proof (ef_a_mark _ _ _ F'). congruence.
  - left. split; [|exact L]. assert (a = a') as <-.
    { exact (proj1 (app_length_inj _ _ _ _ L E')). }
    apply app_inv_head in E'. injection E' as <- <- _. reflexivity.
  - destruct (Nat.eq_dec (length a) (S (length a'))) as [Q|Q]; [|lia]. exfalso.
    apply (f_equal (fun z => nth_error z (S (length a')))) in E'. rewrite (nth_error_app2 a) in E' by lia. rewrite (nth_error_app2 a') in E' by lia.
    replace (S (length a') - length a) with 0 in E' by lia. replace (S (length a') - length a') with 1 in E' by lia. cbn [nth_error app] in E'. injection E' as E'.
    pose proof (ef_m_mark _ _ _ F'). pose proof (ef_a_mark _ _ _ F). congruence.
Qed.
(** The composition read backwards: the mark before the kana. *)
Definition composition' (k v : str) : Prop := exists a m t, k = [m; a] /\ v = [t] /\ composes a m t.
Lemma rules_composition' k v : rules (backward_map neologdn_lig) k v <-> composition' k v.
Proof.
  unfold rules. rewrite back_In. change (In (rev k, rev v) neologdn_lig) with (rules neologdn_lig (rev k) (rev v)). rewrite rules_composition. split.
  - intros (a & m & t & E & E' & C). exists a, m, t. repeat split; [|..|exact C]; apply rev_inj; [rewrite E|rewrite E']; reflexivity.
  - intros (a & m & t & -> & -> & C). exists a, m, t. repeat split. exact C.
Qed.
Lemma comp_same c : forall out, replaced composition c out -> replaced composition' c out ->
  forall a m t, composes a m t -> ~ occurs [a; m] c /\ ~ occurs [m; a] c.
Proof.
  assert (Z : forall k, k <> [] -> ~ occurs k []).
  { intros k N (i & u & w & E & _). symmetry in E. apply app_eq_nil in E as [_ E]. apply app_eq_nil in E as [E _]. exact (N E). }
  induction c as [|x c IH]; intros out H H' a m t C; [split; apply Z; discriminate|].
  inversion H as [|k v s o Nk Hk H1 E E'|y s o M H1 E E'].
  - exfalso. destruct (comp_marks _ _ Hk) as (a1 & m1 & t1 & -> & -> & C1 & A1 & A2 & D1 & D2). cbn [app] in E, E'. injection E as <- <-. subst out.
    inversion H' as [|k' v' s' o' Nk' Hk' H1' F F'|y' s' o' M' H1' F F'].
    + destruct Hk' as (a2 & m2 & t2 & -> & -> & C2). cbn [app] in F. injection F as -> _ _.
      destruct (comp_marks [a2; a1] [t2]) as (a3 & m3 & t3 & E3 & _ & _ & _ & B & _); [exists a2, a1, t2; auto|]. injection E3 as <- <-. congruence.
    + congruence.
  - subst y s out. inversion H' as [|k' v' s' o' Nk' Hk' H1' F F'|y' s' o' M' H1' F F'].
    + exfalso. destruct Hk' as (a2 & m2 & t2 & -> & -> & C2). cbn [app] in F, F'. injection F' as -> _. injection F as -> _.
      destruct (comp_marks [a2; x] [x]) as (a3 & m3 & t3 & E3 & E4 & _ & _ & B & _ & D); [exists a2, x, x; auto|]. injection E3 as <- <-. injection E4 as <-. congruence.
    + subst y' s' o'. destruct (IH o H1 H1' a m t C) as [N N'].
      assert (Sp : forall k, occurs k (x :: c) -> prefix_of k (x :: c) \/ occurs k c).
      { intros k (i & u & w & Eq & _). destruct u as [|z u]; [left; exists w; exact Eq|]. injection Eq as <- Eq. right. exists (length u), u, w. auto. }
      split; intros O; apply Sp in O as [P|O]; [|exact (N O)| |exact (N' O)].
      * apply (M [a; m] [t]); [exists a, m, t; auto|exact P].
      * apply (M' [m; a] [t]); [exists a, m, t; auto|exact P].
Qed.
Lemma replaced_none (R : str -> str -> Prop) c : (forall k v, R k v -> ~ occurs k c) -> replaced R c c.
Proof.
  induction c as [|x c IH]; intros N; [constructor|]. apply rep_miss.
  - intros k v Hk (w & E). apply (N k v Hk). exists 0, [], w. auto.
  - apply IH. intros k v Hk (i & u & w & -> & _). apply (N k v Hk). exists (S (length u)), (x :: u), w. auto.
Qed.
Lemma occurs_back k s : occurs k (rev s) -> occurs (rev k) s.
Proof. intros (i & O). apply occurs_rev in O. rewrite rev_involutive in O. eexists. exact O. Qed.
Lemma comp_back c out out' : replaced composition c out -> replaced composition (rev c) out' ->
  (out' = rev out <-> forall a m t, composes a m t -> ~ occurs [a; m] c /\ ~ occurs [m; a] c).
Proof.
  intros H H'. split.
  - intros ->. apply (comp_same c out H).
    assert (B : replaced (rules (backward_map neologdn_lig)) (rev (rev c)) (rev (rev out))).
    { apply replaced_back; [apply lig_nodup|apply lig_non_interfering|apply comp_separate|]. revert H'. apply replaced_ext. intros k v. symmetry. apply rules_composition. }
    rewrite !rev_involutive in B. revert B. apply replaced_ext. apply rules_composition'.
  - intros N. assert (D : forall s o1 o2, replaced composition s o1 -> replaced composition s o2 -> o1 = o2).
    { intros s o1 o2 H1 H2. apply lig_comp in H1. apply lig_comp in H2. congruence. }
    assert (out = c) as ->. { apply (D c); [exact H|]. apply replaced_none. intros k v (a & m & t & -> & -> & C). apply (N a m t C). }
    apply (D (rev c)); [exact H'|]. apply replaced_none. intros k v (a & m & t & -> & -> & C) O. apply occurs_back in O. exact (proj2 (N a m t C) O).
Qed.
