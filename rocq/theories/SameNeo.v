(** Lemmas for C105: changes that do not show under neologdn. *)
From Verif Require Import Base Utf8 StrOps Converter Eliminator Reducer Dotted TrimMod Ligature Neologdn CharSpec Spec BaseFacts ConverterFacts SimpleFacts SimpleProps LigFacts NeoFacts NeoProps
  PropsOrigin EditFacts CharsetFacts SameSpec SameFacts.
Opaque neo_text.

(** ** Facts about characters *)
Lemma alnum_no c : ~ alnum c -> is_ascii_alphanumeric c = false.
Proof. intros H. destruct (is_ascii_alphanumeric c) eqn:E; [apply is_alnum_spec in E; contradiction|reflexivity]. Qed.
Lemma tilde_in c : not_tilde c = false <-> In c tilde_variants.
Proof.
  unfold not_tilde. rewrite negb_false_iff, existsb_exists. split; [intros (x & I & E); apply N.eqb_eq in E; subst x; exact I|intros I; exists c; split; [exact I|apply N.eqb_refl]].
Qed.
Lemma tilde_alnum c : not_tilde c = false -> is_ascii_alphanumeric c = false.
Proof. intros H. apply tilde_in in H. vm_compute in H. repeat (destruct H as [<-|H]; [reflexivity|]). destruct H. Qed.
Lemma tilde_plain c : not_tilde c = false -> c <> prolonged_mark /\ c <> SPACE.
Proof. intros H. apply tilde_in in H. vm_compute in H. split; repeat (destruct H as [<-|H]; [discriminate|]); destruct H. Qed.
Lemma bases_tilde : forallb not_tilde bases = true.
Proof. vm_compute. reflexivity. Qed.
Lemma base_in a : is_base a = true <-> In a bases.
Proof.
  unfold is_base. generalize bases. intros l. rewrite existsb_exists. split; [intros (x & I & E); apply N.eqb_eq in E; subst x; exact I|intros I; exists a; split; [exact I|apply N.eqb_refl]].
Qed.
Lemma base_tilde a : is_base a = true -> not_tilde a = true.
Proof. intros H. apply base_in in H. exact (proj1 (forallb_forall not_tilde bases) bases_tilde a H). Qed.

Section Plain.
  (* The tables of kana are kept abstract, so that no proof computes with them. *)
  Context (base : char -> bool) (mate : char -> char -> option char).
  Hypothesis base_iff : forall a, base a = true <-> exists m t, composes a m t.
  Hypothesis mate_iff : forall a m t, mate a m = Some t <-> composes a m t.
  Hypothesis base_kept : forall a, base a = true -> not_tilde a = true.
Notation run := (neo_run prolonged_mark not_tilde base mate).
Notation step := (neo_step prolonged_mark not_tilde base mate).
Notation ok := (neo_ok prolonged_mark).
Lemma base_alnum c : base c = true -> is_ascii_alphanumeric c = false.
Proof. intros H. apply base_iff in H as (m & t & C). apply alnum_no, (ef_a_alnum _ _ _ (composes_facts _ _ _ C)). Qed.
Lemma mate_base a c t : mate a c = Some t -> base c = false /\ is_ascii_alphanumeric c = false.
Proof.
  intros H. apply mate_iff, composes_facts in H. split; [|apply alnum_no, (ef_m_alnum _ _ _ H)]. destruct (base c) eqn:B; [|reflexivity]. apply base_iff in B as (m & t' & C). apply composes_facts in C. pose proof (ef_a_mark _ _ _ C). pose proof (ef_m_mark _ _ _ H). congruence.
Qed.
Lemma long_mate a : mate a prolonged_mark = None.
Proof. destruct (mate a prolonged_mark) as [t|] eqn:E; [|reflexivity]. apply mate_iff, composes_facts in E. destruct (ef_m_long _ _ _ E). reflexivity. Qed.
Lemma long_base : base prolonged_mark = false.
Proof. destruct (base prolonged_mark) eqn:E; [|reflexivity]. apply base_iff in E as (m & t & C). destruct (ef_a_long _ _ _ (composes_facts _ _ _ C)). reflexivity. Qed.
Lemma space_base : base SPACE = false.
Proof. destruct (base SPACE) eqn:E; [|reflexivity]. apply base_iff in E as (m & t & C). destruct (ef_a_space _ _ _ (composes_facts _ _ _ C)). reflexivity. Qed.
Lemma run_cons q c s : ok q -> run q (c :: s) = snd (step q c) ++ run (fst (step q c)) s.
Proof.
  intros K. apply neo_run_step; solve [reflexivity | exact long_base | exact long_mate | exact space_base | exact tilde_alnum | exact base_alnum | exact mate_base | exact K].
Qed.
Lemma ok_step q c : ok q -> ok (fst (step q c)).
Proof.
  intros K. apply neo_ok_step; solve [reflexivity | exact long_base | exact long_mate | exact space_base | exact tilde_alnum | exact base_alnum | exact mate_base | exact K].
Qed.
Lemma run_nil q : run q [] = held (snd q).
Proof. destruct q as [[p sp] b]. reflexivity. Qed.

(** ** Reading up to a place *)
Fixpoint after (q : state) (u : str) : state := match u with [] => q | c :: r => after (fst (step q c)) r end.
Fixpoint outs (q : state) (u : str) : str := match u with [] => [] | c :: r => snd (step q c) ++ outs (fst (step q c)) r end.
Lemma run_app u : forall q s, ok q -> run q (u ++ s) = outs q u ++ run (after q u) s /\ ok (after q u).
Proof.
  induction u as [|c u IH]; intros q s K; [auto|]. cbn [app outs after]. rewrite (run_cons _ _ _ K). destruct (IH _ s (ok_step q c K)) as [-> K']. rewrite <- app_assoc. auto.
Qed.
Lemma after_snoc u : forall q c, after q (u ++ [c]) = fst (step (after q u) c).
Proof. induction u as [|x u IH]; intros q c; [reflexivity|]. cbn [app after]. apply IH. Qed.
Definition start : state := (SPACE, false, None).
Lemma ok_start : ok start.
Proof. unfold start. repeat split; try discriminate; auto. Qed.
Definition last_of (u : str) : char := match rev u with [] => SPACE | c :: _ => c end.
Lemma last_snoc u c : last_of (u ++ [c]) = c.
Proof. unfold last_of. rewrite rev_app_distr. reflexivity. Qed.
Lemma after_last u : fst (fst (after start u)) = last_of u /\ (snd (fst (after start u)) = true -> ends_in (eq space) u).
Proof.
  induction u as [|c u [IH _]] using rev_ind; [split; [reflexivity|discriminate]|]. rewrite after_snoc, last_snoc, ends_snoc'.
  pose proof (proj2 (run_app u start [] ok_start)) as K. destruct (after start u) as [[p sp] b]. destruct K as (_ & _ & K). cbn [fst] in IH. unfold neo_step.
  destruct (N.eqb_spec prolonged_mark c) as [E|N].
  - destruct (N.eqb_spec prolonged_mark p) as [E'|N']; cbn [fst snd]; [|split; [reflexivity|discriminate]]. split; [congruence|]. destruct (K E') as [_ ->]. discriminate.
  - destruct (N.eqb_spec c SPACE) as [E|N']; [cbn [fst snd]; split; [reflexivity|intros _; symmetry; exact E]|]. destruct (negb (not_tilde c)); [cbn [fst snd]; split; [reflexivity|discriminate]|].
    destruct (match b with Some a => mate a c | None => None end); [cbn [fst snd]; split; [reflexivity|discriminate]|]. destruct (base c); cbn [fst snd]; (split; [reflexivity|discriminate]).
Qed.
Lemma ends_last P u : ends_in P u -> P (last_of u).
Proof. intros (c & E & H). unfold last_of. destruct (rev u) as [|x r]; [discriminate E|]. injection E as ->. exact H. Qed.
Lemma last_ends (P : char -> Prop) u : ~ P SPACE -> P (last_of u) -> ends_in P u.
Proof. intros N H. unfold last_of in H. unfold ends_in. destruct (rev u) as [|x r]; [contradiction|]. exists x. auto. Qed.

(** ** The changes do not show *)
Lemma long_here p sp b v : ok (p, sp, b) -> run (p, sp, b) (prolonged_mark :: prolonged_mark :: v) = run (p, sp, b) (prolonged_mark :: v).
Proof.
  intros K. rewrite (run_cons _ _ (prolonged_mark :: v) K), (run_cons _ _ v K). f_equal. rewrite run_cons by (apply ok_step, K). unfold neo_step. rewrite !N.eqb_refl.
  destruct (N.eqb_spec prolonged_mark p) as [E|N]; cbn [fst snd]; [rewrite <- E|]; rewrite ?N.eqb_refl; reflexivity.
Qed.
Lemma space_here p sp b v : ok (p, sp, b) -> ~ (alnum p /\ begins_in alnum v) -> ~ (p = prolonged_mark /\ begins_in (eq prolonged_mark) v) -> run (p, sp, b) (SPACE :: v) = run (p, sp, b) v.
Proof.
  intros K A L. rewrite (run_cons _ _ v K). pose proof (ok_step _ SPACE K) as K'. unfold neo_step in *. change (N.eqb prolonged_mark SPACE) with false in *. rewrite N.eqb_refl in *. cbn [fst snd app] in *.
  destruct v as [|c v]; [rewrite !run_nil; reflexivity|]. rewrite (run_cons _ _ _ K), (run_cons _ _ _ K'). rewrite begins_cons in A, L. unfold neo_step.
  destruct (N.eqb_spec prolonged_mark c) as [E|N].
  - change (N.eqb prolonged_mark SPACE) with false. destruct (N.eqb_spec prolonged_mark p) as [E'|N']; [destruct L; auto|]. reflexivity.
  - destruct (N.eqb c SPACE); [destruct (is_ascii_alphanumeric p); reflexivity|]. destruct (negb (not_tilde c)); [reflexivity|]. destruct (match b with Some a => mate a c | None => None end); [reflexivity|].
    destruct (base c); [reflexivity|]. destruct (is_ascii_alphanumeric p) eqn:P; [|reflexivity].
    assert (is_ascii_alphanumeric c = false) as B by (apply alnum_no; intros Q; apply A; split; [apply is_alnum_spec, P|exact Q]).
    assert (G : forall x, gap x c = []) by (intros x; unfold gap; rewrite B; destruct x; reflexivity). rewrite !G. reflexivity.
Qed.
(** The previous character matters only as a letter or digit before a space and as a prolonged sound mark before another. *)
Lemma previous p p' b v : ok (p, false, b) -> ok (p', false, b) -> (begins_in (eq prolonged_mark) v -> p <> prolonged_mark /\ p' <> prolonged_mark) ->
  (begins_in (eq space) v -> ~ alnum p /\ ~ alnum p') -> run (p, false, b) v = run (p', false, b) v.
Proof.
  intros K K' L S. destruct v as [|c v]; [rewrite !run_nil; reflexivity|]. rewrite (run_cons _ _ _ K), (run_cons _ _ _ K'). rewrite begins_cons in L, S. unfold neo_step.
  destruct (N.eqb_spec prolonged_mark c) as [E|N].
  - destruct (L E) as [A B]. destruct (N.eqb_spec prolonged_mark p); [congruence|]. destruct (N.eqb_spec prolonged_mark p'); [congruence|]. reflexivity.
  - destruct (N.eqb_spec c SPACE) as [E|N']; [|reflexivity]. destruct (S (eq_sym E)) as [A B]. rewrite (alnum_no _ A), (alnum_no _ B). reflexivity.
Qed.
Lemma tilde_here p b x v : In x tilde_variants -> ok (p, false, b) -> ~ begins_in (eq space) v -> ~ (p = prolonged_mark /\ begins_in (eq prolonged_mark) v) -> run (p, false, b) (x :: v) = run (p, false, b) v.
Proof.
  intros T K S L. apply tilde_in in T. destruct (tilde_plain x T) as [NL NS]. rewrite (run_cons _ _ v K). pose proof (ok_step _ x K) as K'. unfold neo_step in *.
  destruct (N.eqb_spec prolonged_mark x) as [E|_]; [congruence|]. destruct (N.eqb_spec x SPACE) as [E|_]; [congruence|]. rewrite T in *. cbn [negb fst snd app] in *.
  apply previous; [exact K'|exact K| |contradiction]. intros B. split; [exact NL|]. intros E. apply L. auto.
Qed.
Lemma between_here p sp b x v : In x tilde_variants -> ok (p, sp, b) -> run (p, sp, b) (prolonged_mark :: x :: prolonged_mark :: v) = run (p, sp, b) (prolonged_mark :: SPACE :: prolonged_mark :: v).
Proof.
  intros T K. apply tilde_in in T. destruct (tilde_plain x T) as [NL NS]. rewrite !(run_cons (p, sp, b) _ _ K). f_equal. pose proof (ok_step _ prolonged_mark K) as K'.
  assert (F : fst (step (p, sp, b) prolonged_mark) = (prolonged_mark, false, None)).
  { unfold neo_step. rewrite N.eqb_refl. destruct (N.eqb_spec prolonged_mark p) as [E|_]; [|reflexivity]. destruct K as (_ & _ & K). destruct (K E) as [-> ->]. rewrite E. reflexivity. }
  rewrite F in *. rewrite (run_cons _ x _ K'), (run_cons _ SPACE _ K'). pose proof (ok_step _ x K') as K1. pose proof (ok_step _ SPACE K') as K2. unfold neo_step in *.
  change (N.eqb prolonged_mark SPACE) with false in *. destruct (N.eqb_spec prolonged_mark x) as [E|_]; [congruence|]. destruct (N.eqb_spec x SPACE) as [E|_]; [congruence|]. rewrite T in *. rewrite N.eqb_refl in *.
  change (is_ascii_alphanumeric prolonged_mark) with false in *. cbn [negb fst snd app] in *. apply previous; [exact K1|exact K2| |].
  - intros _. split; [exact NL|discriminate].
  - rewrite begins_cons. discriminate.
Qed.
Lemma mark_tilde a m t : composes a m t -> not_tilde m = true.
Proof. intros [[-> _]|[-> _]]; reflexivity. Qed.
Lemma t_plain a m t : composes a m t -> base t = false /\ (forall x, mate x t = None) /\ not_tilde t = true.
Proof.
  intros C. pose proof (composes_facts _ _ _ C) as F. split; [|split].
  - destruct (base t) eqn:E; [|reflexivity]. apply base_iff in E as (m' & t' & C'). destruct (ef_t_key _ _ _ F [t; m'] [t']); [apply lig_rel; eauto 6|left; reflexivity].
  - intros x. destruct (mate x t) as [y|] eqn:E; [|reflexivity]. apply mate_iff in E. destruct (ef_t_key _ _ _ F [x; t] [y]); [apply lig_rel; eauto 6|right; left; reflexivity].
  - pose proof (ef_t_tilde _ _ _ F) as E. rewrite TILDES_eq in E. apply (mem_false N.eqb N.eqb_eq) in E. apply not_tilde_true, E.
Qed.
Lemma gap_no x c : ~ alnum c -> gap x c = [].
Proof. intros H. unfold gap. rewrite (alnum_no _ H). destruct x; reflexivity. Qed.
Lemma compose_here p sp b a m t v : composes a m t -> ok (p, sp, b) -> run (p, sp, b) (a :: m :: v) = run (p, sp, b) (t :: v).
Proof.
  intros C K. pose proof (composes_facts _ _ _ C) as F.
  assert (Ba : base a = true) by (apply base_iff; eauto).
  assert (Na : forall x, mate x a = None) by (intros x; destruct (mate x a) as [y|] eqn:Q; [apply mate_base in Q as [Q _]; congruence|reflexivity]).
  destruct (t_plain _ _ _ C) as (Bt & Nt & Tt). pose proof (base_kept a Ba) as Ta. pose proof (mark_tilde _ _ _ C) as Tm. pose proof (proj2 (mate_iff a m t) C) as Mt.
  assert (Sa : step (p, sp, b) a = ((a, false, Some a), held b)).
  { unfold neo_step. destruct (N.eqb_spec prolonged_mark a) as [E|_]; [destruct (ef_a_long _ _ _ F); congruence|]. destruct (N.eqb_spec a SPACE) as [E|_]; [destruct (ef_a_space _ _ _ F); congruence|].
    rewrite Ta, Ba. cbn [negb]. destruct b as [y|]; [rewrite Na|]; reflexivity. }
  assert (Sm : step (a, false, Some a) m = ((m, false, None), [t])).
  { unfold neo_step. destruct (N.eqb_spec prolonged_mark m) as [E|_]; [destruct (ef_m_long _ _ _ F); congruence|]. destruct (N.eqb_spec m SPACE) as [E|_]; [destruct (ef_m_space _ _ _ F); congruence|].
    rewrite Tm, Mt. reflexivity. }
  assert (St : step (p, sp, b) t = ((t, false, None), held b ++ [t])).
  { unfold neo_step. destruct (N.eqb_spec prolonged_mark t) as [E|_]; [destruct (ef_t_long _ _ _ F); congruence|]. destruct (N.eqb_spec t SPACE) as [E|_]; [destruct (ef_t_space _ _ _ F); congruence|].
    rewrite Tt, Bt. cbn [negb]. rewrite (gap_no _ _ (ef_t_alnum _ _ _ F)). destruct b as [y|]; [rewrite Nt|]; reflexivity. }
  pose proof (ok_step _ a K) as K1. rewrite Sa in K1. cbn [fst] in K1. pose proof (ok_step _ m K1) as K2. rewrite Sm in K2. cbn [fst] in K2. pose proof (ok_step _ t K) as K3. rewrite St in K3. cbn [fst] in K3.
  rewrite (run_cons _ a _ K), Sa. cbn [fst snd]. rewrite (run_cons _ m _ K1), Sm. cbn [fst snd]. rewrite (run_cons _ t _ K), St. cbn [fst snd]. rewrite <- app_assoc. do 2 f_equal.
  apply previous; [exact K2|exact K3| |].
  - intros _. split; [exact (ef_m_long _ _ _ F)|exact (ef_t_long _ _ _ F)].
  - intros _. split; [exact (ef_m_alnum _ _ _ F)|exact (ef_t_alnum _ _ _ F)].
Qed.
Lemma local_keeps s t : neologdn_local s t -> run start s = run start t.
Proof.
  assert (X : forall u x y, (forall p sp b, after start u = (p, sp, b) -> ok (p, sp, b) -> run (p, sp, b) x = run (p, sp, b) y) -> run start (u ++ x) = run start (u ++ y)).
  { intros u x y H. destruct (run_app u start x ok_start) as [-> K]. rewrite (proj1 (run_app u start y ok_start)). f_equal. destruct (after start u) as [[p sp] b] eqn:E. apply H; auto. }
  intros [u v|u v A L|x u v T A S L|x u v T|a m c u v C]; apply X; intros p sp b E K; pose proof (after_last u) as [P Q]; rewrite E in P, Q; cbn [fst snd] in P, Q; cbn [app].
  - apply long_here, K.
  - apply space_here; [exact K| |].
    + intros [H B]. apply A. split; [|exact B]. apply last_ends; [intros Z; apply is_alnum_spec in Z; discriminate Z|]. rewrite <- P. exact H.
    + intros [H B]. apply L. split; [|exact B]. apply last_ends; [discriminate|]. rewrite <- P, H. reflexivity.
  - assert (sp = false) as -> by (destruct sp; [destruct A; apply Q; reflexivity|reflexivity]). apply tilde_here; [exact T|exact K|exact S|].
    intros [H B]. apply L. split; [|exact B]. apply last_ends; [discriminate|]. rewrite <- P, H. reflexivity.
  - apply between_here; assumption.
  - apply compose_here; assumption.
Qed.

(** ** Every settled text is connected to one that its result determines *)
Fixpoint spread (p : char) (s : str) : str :=
  match s with [] => [] | c :: r => (if N.eqb p prolonged_mark && N.eqb c prolonged_mark then [SPACE] else [])%bool ++ c :: spread c r end.
Definition fits (p c : char) (r : str) : Prop :=
  ~ In c tilde_variants /\ (c = SPACE -> (alnum p /\ begins_in alnum r) \/ (p = prolonged_mark /\ begins_in (eq prolonged_mark) r)) /\
  (c = prolonged_mark -> p <> prolonged_mark) /\ (forall t, ~ composes p c t).
Fixpoint plain_from (p : char) (s : str) : Prop := match s with [] => True | c :: r => fits p c r /\ plain_from c r end.
Definition waiting (p : char) : option char := if base p then Some p else None.
Lemma ok_waiting p : ok (p, false, waiting p).
Proof.
  unfold waiting. split; [discriminate|]. split.
  - intros A. split; [|reflexivity]. destruct (base p) eqn:B; [rewrite (base_alnum _ B) in A; discriminate A|reflexivity].
  - intros <-. rewrite long_base. auto.
Qed.
Lemma plain_spread n : forall s p, length s <= n -> plain_from p s -> exists r, run (p, false, waiting p) s = held (waiting p) ++ r /\ spread p r = s.
Proof.
  induction n as [|n IH]; intros s p L H.
  - destruct s; [|cbn [length] in L; lia]. exists []. rewrite run_nil, app_nil_r. auto.
  - destruct s as [|c s]; [exists []; rewrite run_nil, app_nil_r; auto|]. cbn [length] in L. destruct H as [(T & S & G & M) H]. rewrite (run_cons _ _ _ (ok_waiting p)).
    assert (T' : not_tilde c = true) by (apply not_tilde_true, T). unfold neo_step at 1 2.
    destruct (N.eqb_spec prolonged_mark c) as [E|NL].
    + destruct (N.eqb_spec prolonged_mark p) as [E'|NP]; [destruct (G (eq_sym E)); congruence|]. cbn [fst snd].
      destruct (IH s c ltac:(lia) H) as (r & E1 & E2). assert (W : waiting c = None) by (rewrite <- E; unfold waiting; rewrite long_base; reflexivity). rewrite W in E1. rewrite E1. exists (c :: r). split; [rewrite <- app_assoc; reflexivity|].
      cbn [spread]. destruct (N.eqb_spec p prolonged_mark); [congruence|]. cbn [andb app]. rewrite E2. reflexivity.
    + destruct (N.eqb_spec c SPACE) as [E|NS].
      * subst c. destruct (S eq_refl) as [[A B]|[A B]]; destruct B as (d & Ed & Pd); destruct s as [|x s]; try discriminate Ed; injection Ed as ->; destruct H as [_ H]; cbn [length] in L.
        -- assert (A' := proj2 (is_alnum_spec p) A). assert (D' := proj2 (is_alnum_spec d) Pd). rewrite A'. cbn [fst snd app].
           assert (W : waiting p = None) by (unfold waiting; destruct (base p) eqn:B; [rewrite (base_alnum _ B) in A'; discriminate A'|reflexivity]). rewrite W.
           assert (W' : waiting d = None) by (unfold waiting; destruct (base d) eqn:B; [rewrite (base_alnum _ B) in D'; discriminate D'|reflexivity]).
           assert (K : ok (SPACE, true, None)) by (repeat split; try discriminate; auto). rewrite (run_cons _ _ _ K). unfold neo_step.
           destruct (N.eqb_spec prolonged_mark d) as [E|_]; [rewrite <- E in D'; discriminate D'|]. destruct (N.eqb_spec d SPACE) as [E|_]; [rewrite E in D'; discriminate D'|].
           destruct (not_tilde d) eqn:Td; [|rewrite (tilde_alnum _ Td) in D'; discriminate D']. cbn [negb].
           assert (Bd : base d = false) by (destruct (base d) eqn:B; [rewrite (base_alnum _ B) in D'; discriminate D'|reflexivity]). rewrite Bd. cbn [fst snd held app]. unfold gap. rewrite D'. cbn [app].
           destruct (IH s d ltac:(lia) H) as (r & E1 & E2). rewrite W' in E1. rewrite E1. cbn [held app]. exists (SPACE :: d :: r). split; [reflexivity|]. cbn [spread].
           change (N.eqb SPACE prolonged_mark) with false. rewrite andb_false_r. cbn [andb app]. rewrite E2. reflexivity.
        -- rewrite <- Pd in *. clear d Pd. rewrite A in *. clear p A. change (is_ascii_alphanumeric prolonged_mark) with false. cbn [fst snd app].
           assert (W : waiting prolonged_mark = None) by (unfold waiting; rewrite long_base; reflexivity). rewrite W.
           assert (K : ok (SPACE, false, None)) by exact ok_start. rewrite (run_cons _ _ _ K). unfold neo_step. rewrite N.eqb_refl. change (N.eqb prolonged_mark SPACE) with false. cbn [fst snd held app].
           destruct (IH s prolonged_mark ltac:(lia) H) as (r & E1 & E2). rewrite W in E1. rewrite E1. cbn [held app]. exists (prolonged_mark :: r). split; [reflexivity|]. cbn [spread]. rewrite N.eqb_refl. cbn [andb app]. rewrite E2. reflexivity.
      * rewrite T'. cbn [negb].
        assert (Mn : match waiting p with Some a => mate a c | None => None end = None).
        { unfold waiting. destruct (base p); [|reflexivity]. destruct (mate p c) as [t|] eqn:Q; [|reflexivity]. apply mate_iff in Q. destruct (M t Q). }
        rewrite Mn. destruct (IH s c ltac:(lia) H) as (r & E1 & E2). unfold waiting in E1 at 1 2. destruct (base c) eqn:B; cbn [fst snd].
        -- rewrite E1. cbn [held app]. exists (c :: r). split; [reflexivity|]. cbn [spread]. destruct (N.eqb_spec c prolonged_mark); [congruence|]. rewrite andb_false_r. cbn [app]. rewrite E2. reflexivity.
        -- rewrite E1. cbn [held app gap]. exists (c :: r). split; [rewrite <- app_assoc; reflexivity|]. cbn [spread]. destruct (N.eqb_spec c prolonged_mark); [congruence|]. rewrite andb_false_r. cbn [app]. rewrite E2. reflexivity.
Qed.
Lemma plain_result s : plain_from SPACE s -> spread SPACE (run start s) = s.
Proof.
  intros H. destruct (plain_spread (length s) s SPACE (le_n _) H) as (r & E & S). unfold waiting in E. rewrite space_base in E. cbn [held app] in E. unfold start. rewrite E. exact S.
Qed.
End Plain.

(** ** Reaching a plain text *)
Definition weight (s : str) : nat := list_sum (map (fun c => if not_tilde c then 1 else 2) s).
Lemma weight_app a b : weight (a ++ b) = weight a + weight b.
Proof. unfold weight. rewrite map_app, list_sum_app. reflexivity. Qed.
Lemma weight_one c : weight [c] = if not_tilde c then 1 else 2.
Proof. unfold weight. cbn. destruct (not_tilde c); reflexivity. Qed.
Lemma settled_app a b : settled (a ++ b) <-> settled a /\ settled b.
Proof.
  unfold settled. split.
  - intros H. split; intros c t I; apply H, in_app_iff; auto.
  - intros [A B] c t I. apply in_app_iff in I as [I|I]; [apply A, I|apply B, I].
Qed.
Lemma settled_cons c s : settled (c :: s) <-> settled [c] /\ settled s.
Proof. apply (settled_app [c] s). Qed.
Lemma valid_cons c s : valid_str (c :: s) <-> valid_str [c] /\ valid_str s.
Proof. apply (valid_parts [c] s). Qed.
Lemma space_rel t : ~ neologdn_rel SPACE t.
Proof. apply (neologdn_rel_final 0x3000%N SPACE). apply nr_preset; [discriminate|constructor]. Qed.
Lemma settled_space : settled [SPACE].
Proof. intros c t [<-|[]]. apply space_rel. Qed.
Lemma settled_composed a m t : composes a m t -> settled [t].
Proof. intros C c u [<-|[]] R. apply NEO_rel in R. exact (ef_t_conv _ _ _ (composes_facts _ _ _ C) u R). Qed.
Definition begins (p : char -> bool) (s : str) : bool := match s with [] => false | c :: _ => p c end.
Lemma begins_iff (p : char -> bool) (P : char -> Prop) s : (forall c, p c = true <-> P c) -> (begins p s = true <-> begins_in P s).
Proof. intros H. destruct s as [|c s]; [split; [discriminate|intros B; destruct (begins_nil _ B)]|]. cbn [begins]. rewrite begins_cons. apply H. Qed.
Lemma begins_dec (p : char -> bool) (P : char -> Prop) s : (forall c, p c = true <-> P c) -> begins_in P s \/ ~ begins_in P s.
Proof. intros H. rewrite <- (begins_iff p P s H). destruct (begins p s); [left; reflexivity|right; discriminate]. Qed.
Lemma begins_eq_dec x s : begins_in (eq x) s \/ ~ begins_in (eq x) s.
Proof. apply (begins_dec (N.eqb x)). intros c. apply N.eqb_eq. Qed.
Lemma begins_alnum_dec s : begins_in alnum s \/ ~ begins_in alnum s.
Proof. apply (begins_dec is_ascii_alphanumeric). intros c. apply is_alnum_spec. Qed.
Definition simpler (s : str) : Prop := exists t, neologdn_change s t /\ settled t /\ valid_str t /\ weight t < weight s.
Lemma simpler_local s t : settled s -> settled t -> valid_str t -> neologdn_local s t -> weight t < weight s -> simpler s.
Proof. intros Ss St V L W. exists t. split; [apply nc_local; assumption|auto]. Qed.
Ltac part := repeat (rewrite ?app_assoc, ?app_nil_r in *).
Lemma not_last P u : ~ P SPACE -> ~ P (last_of u) -> ~ ends_in P u.
Proof. intros _ H E. apply H, ends_last, E. Qed.
Lemma plain_or_simpler : forall w u, settled (u ++ w) -> valid_str (u ++ w) -> plain_from (last_of u) w \/ simpler (u ++ w).
Proof.
  induction w as [|c w IH]; intros u S V; [left; exact I|].
  assert (Q : plain_from c w \/ simpler (u ++ c :: w)).
  { specialize (IH (u ++ [c])). rewrite last_snoc, <- app_assoc in IH. apply IH; assumption. }
  destruct Q as [Q|Q]; [|right; exact Q]. cbn [plain_from].
  assert (Cut : settled (u ++ w) /\ valid_str (u ++ w)).
  { rewrite settled_app, settled_cons in S. rewrite valid_parts, valid_cons in V. rewrite settled_app, valid_parts. tauto. }
  assert (W1 : 1 <= weight [c]) by (rewrite weight_one; destruct (not_tilde c); lia).
  assert (We : forall x : str, weight (u ++ c :: w) = weight u + weight [c] + weight w) by (intros _; change (c :: w) with ([c] ++ w); rewrite !weight_app; lia).
  specialize (We []).
  destruct (not_tilde c) eqn:T.
  2:{ right. assert (It : In c tilde_variants) by (apply tilde_in, T). assert (Wc : weight [c] = 2) by (rewrite weight_one; rewrite T; reflexivity).
      destruct (begins_eq_dec space w) as [B|NB].
      { (* the space after it *)
        destruct w as [|x w]; [destruct (begins_nil _ B)|]. apply (proj1 (begins_cons _ _ _)) in B. subst x.
        assert (E : u ++ c :: space :: w = (u ++ [c]) ++ [space] ++ w) by (rewrite <- app_assoc; reflexivity). rewrite E in *. clear E. change (space :: w) with ([space] ++ w) in Cut. destruct Cut as [S' V'].
        assert (S2 : settled ((u ++ [c]) ++ w)) by (rewrite !settled_app in *; tauto). assert (V2 : valid_str ((u ++ [c]) ++ w)) by (rewrite !valid_parts in *; tauto).
        apply (simpler_local _ ((u ++ [c]) ++ w)); [exact S|exact S2|exact V2| |rewrite !weight_app; change (weight [space]) with 1; lia].
        apply nl_space; rewrite ends_snoc'; [intros [A _]; apply is_alnum_spec in A; rewrite (tilde_alnum _ T) in A; discriminate A|intros [A _]; destruct (tilde_plain _ T); congruence]. }
      destruct u as [|p u _] using rev_ind.
      { apply (simpler_local _ w); [exact S|apply Cut|apply Cut| |rewrite We; lia]. apply (nl_tilde c [] w It); [apply ends_nil|exact NB|intros [E _]; exact (ends_nil _ E)]. }
      destruct (N.eq_dec p space) as [E|NS].
      { (* the space before it *)
        subst p. assert (E : (u ++ [space]) ++ c :: w = u ++ [space] ++ [c] ++ w) by (rewrite <- app_assoc; reflexivity). rewrite E in *. clear E. destruct Cut as [S' V'].
        assert (S2 : settled (u ++ c :: w)) by (change (c :: w) with ([c] ++ w); rewrite !settled_app in *; tauto). assert (V2 : valid_str (u ++ c :: w)) by (change (c :: w) with ([c] ++ w); rewrite !valid_parts in *; tauto).
        apply (simpler_local _ (u ++ c :: w)); [exact S|exact S2|exact V2| |change (c :: w) with ([c] ++ w); rewrite !weight_app; change (weight [space]) with 1; lia].
        apply nl_space; rewrite begins_cons; [intros [_ A]; apply is_alnum_spec in A; rewrite (tilde_alnum _ T) in A; discriminate A|intros [_ A]; destruct (tilde_plain _ T); congruence]. }
      destruct (N.eq_dec p prolonged_mark) as [E|NL]; [destruct (begins_eq_dec prolonged_mark w) as [B|NB']|].
      - subst p. destruct w as [|x w]; [destruct (begins_nil _ B)|]. apply (proj1 (begins_cons _ _ _)) in B. subst x.
        change (c :: prolonged_mark :: w) with ([c] ++ [prolonged_mark] ++ w) in *. change (prolonged_mark :: w) with ([prolonged_mark] ++ w) in *.
        assert (S2 : settled (u ++ [prolonged_mark; space; prolonged_mark] ++ w)).
        { change (u ++ [prolonged_mark; space; prolonged_mark] ++ w) with (u ++ [prolonged_mark] ++ [space] ++ [prolonged_mark] ++ w). pose proof settled_space as SS. change SPACE with space in SS. destruct Cut as [S' V']. rewrite !settled_app in *. tauto. }
        assert (V2 : valid_str (u ++ [prolonged_mark; space; prolonged_mark] ++ w)).
        { change (u ++ [prolonged_mark; space; prolonged_mark] ++ w) with (u ++ [prolonged_mark] ++ [space] ++ [prolonged_mark] ++ w). assert (valid_str [space]) by (repeat constructor). destruct Cut as [S' V']. rewrite !valid_parts in *. tauto. }
        apply (simpler_local _ _ S S2 V2).
        + rewrite <- app_assoc. exact (nl_between c u w It).
        + rewrite !weight_app. change (weight [prolonged_mark; space; prolonged_mark]) with 3. change (weight [prolonged_mark]) with 1. lia.
      - apply (simpler_local _ _ S (proj1 Cut) (proj2 Cut)); [|rewrite We, weight_app; lia]. apply (nl_tilde c (u ++ [p]) w It); rewrite ?ends_snoc'; [congruence|exact NB|intros [_ B]; contradiction].
      - apply (simpler_local _ _ S (proj1 Cut) (proj2 Cut)); [|rewrite We, weight_app; lia]. apply (nl_tilde c (u ++ [p]) w It); rewrite ?ends_snoc'; [congruence|exact NB|intros [B _]; congruence]. }
  apply not_tilde_true in T.
  destruct (N.eq_dec c SPACE) as [E|NS].
  - subst c.
    assert (D : (alnum (last_of u) /\ begins_in alnum w) \/ (last_of u = prolonged_mark /\ begins_in (eq prolonged_mark) w) \/
      (~ (ends_in alnum u /\ begins_in alnum w) /\ ~ (ends_in (eq prolonged_mark) u /\ begins_in (eq prolonged_mark) w))).
    { destruct (begins_alnum_dec w) as [A|A]; [destruct (is_ascii_alphanumeric (last_of u)) eqn:P; [left; split; [apply is_alnum_spec, P|exact A]|]|]; right;
        (destruct (begins_eq_dec prolonged_mark w) as [B|B]; [destruct (N.eq_dec (last_of u) prolonged_mark) as [L|L]; [left; auto|]|]; right; split; intros [X Y]; try contradiction; apply ends_last in X; try congruence; try (apply is_alnum_spec in X; congruence)). }
    destruct D as [D|[D|[D1 D2]]].
    + left. split; [|exact Q]. split; [exact T|]. split; [auto|]. split; [discriminate|]. intros t C. destruct (ef_m_space _ _ _ (composes_facts _ _ _ C)). reflexivity.
    + left. split; [|exact Q]. split; [exact T|]. split; [auto|]. split; [discriminate|]. intros t C. destruct (ef_m_space _ _ _ (composes_facts _ _ _ C)). reflexivity.
    + right. apply (simpler_local _ _ S (proj1 Cut) (proj2 Cut)); [|rewrite We, weight_app; lia]. exact (nl_space u w D1 D2).
  - destruct (N.eq_dec c prolonged_mark) as [E|NL].
    + subst c. destruct (N.eq_dec (last_of u) prolonged_mark) as [L|L].
      * right. destruct u as [|p u _] using rev_ind; [discriminate L|]. rewrite last_snoc in L. subst p. apply (simpler_local _ _ S (proj1 Cut) (proj2 Cut)); [|rewrite We, weight_app; lia].
        rewrite <- !app_assoc. exact (nl_long u w).
      * left. split; [|exact Q]. split; [exact T|]. split; [discriminate|]. split; [auto|]. intros t C. destruct (ef_m_long _ _ _ (composes_facts _ _ _ C)). reflexivity.
    + destruct (mate_of (last_of u) c) as [t|] eqn:M.
      * right. apply mate_of_iff in M. destruct u as [|p u _] using rev_ind; [destruct (ef_a_space _ _ _ (composes_facts _ _ _ M)); reflexivity|]. rewrite last_snoc in M.
        assert (S2 : settled (u ++ [t] ++ w)) by (pose proof (settled_composed _ _ _ M); destruct Cut as [S' V']; rewrite !settled_app in *; tauto).
        assert (V2 : valid_str (u ++ [t] ++ w)) by (assert (valid_str [t]) by (constructor; [exact (composes_scalar _ _ _ M)|constructor]); destruct Cut as [S' V']; rewrite !valid_parts in *; tauto).
        apply (simpler_local _ _ S S2 V2); [rewrite <- !app_assoc; exact (nl_compose p c t u w M)|]. rewrite We, !weight_app.
        assert (Wt : weight [t] = 1) by (rewrite weight_one; rewrite (proj2 (proj2 (t_plain is_base mate_of is_base_iff mate_of_iff _ _ _ M))); reflexivity).
        assert (Wp : 1 <= weight [p]) by (rewrite weight_one; destruct (not_tilde p); lia). lia.
      * left. split; [|exact Q]. split; [exact T|]. split; [contradiction|]. split; [contradiction|]. intros t C. apply mate_of_iff in C. congruence.
Qed.
Lemma reach_plain n : forall s, weight s <= n -> settled s -> valid_str s -> exists t, connected neologdn_change s t /\ settled t /\ plain_from SPACE t.
Proof.
  induction n as [|n IH]; intros s W S V; (destruct (plain_or_simpler s [] S V) as [P|(t & C & St & Vt & Wt)]; [exists s; split; [constructor|auto]|]).
  - cbn [app] in Wt. lia.
  - cbn [app] in C, Wt. destruct (IH t ltac:(lia) St Vt) as (x & Cx & Sx & Px). exists x. split; [|auto]. exact (con_trans _ _ _ _ (con_do _ _ _ C Vt) Cx).
Qed.

(** ** Together *)
Lemma conv_settled s : settled s -> neo_conv_text s = s.
Proof.
  intros S. unfold neo_conv_text. rewrite <- (map_id s) at 2. apply map_ext_in. intros c I. unfold conv1. destruct (conv_get (neo_conv NEO) c) as [t|] eqn:E; [|reflexivity]. apply NEO_get in E. destruct (S c t I E).
Qed.
Lemma settled_conv s : settled (neo_conv_text s).
Proof.
  intros c t I R. unfold neo_conv_text in I. apply in_map_iff in I as (x & E & _). unfold conv1 in E. destruct (conv_get (neo_conv NEO) x) as [y|] eqn:G.
  - subst y. apply NEO_get in G. exact (neologdn_rel_final _ _ _ G R).
  - subst x. apply NEO_get in R. congruence.
Qed.
Lemma run_of s : neo_text s = neo_run prolonged_mark not_tilde is_base mate_of start (neo_conv_text s).
Proof. apply neo_text_run. Qed.
Lemma neo_keeps s t : neologdn_change s t -> neo_text s = neo_text t.
Proof.
  intros [a b E|a b Sa Sb L]; rewrite !run_of.
  - f_equal. unfold neo_conv_text. revert a b E. apply exchange_keeps. intros c d R. unfold conv1. rewrite (proj2 (NEO_get c d) R). destruct (conv_get (neo_conv NEO) d) as [x|] eqn:G; [|reflexivity]. apply NEO_get in G. destruct (neologdn_rel_final _ _ _ R G).
  - rewrite (conv_settled _ Sa), (conv_settled _ Sb). apply local_keeps; [exact is_base_iff|exact mate_of_iff|exact base_tilde|exact L].
Qed.
Lemma con_mono (A B : str -> str -> Prop) : (forall s t, A s t -> B s t) -> forall s t, connected A s t -> connected B s t.
Proof. intros H s t C. induction C as [|a b _ IH E V|a b _ IH E V]; [constructor|exact (con_done _ _ a b IH (H _ _ E) V)|exact (con_undone _ _ a b IH (H _ _ E) V)]. Qed.
Lemma neo_reach s : valid_str s -> connected neologdn_change s (spread SPACE (neo_text s)).
Proof.
  intros V. assert (C : connected neologdn_change s (neo_conv_text s)).
  { apply (con_mono _ _ (nc_convert)). apply (exchange_all neologdn_rel (conv1 (neo_conv NEO))) with (u := []) (s := s); [| |exact V].
    - intros c. unfold conv1. destruct (conv_get (neo_conv NEO) c) as [t|] eqn:G; [right; apply NEO_get, G|left; reflexivity].
    - intros c Vc. unfold conv1. destruct (conv_get (neo_conv NEO) c) as [t|] eqn:G; [apply NEO_get in G; exact (neo_rel_scalar _ _ G)|exact Vc]. }
  pose proof (con_valid _ _ _ V C) as V'. destruct (reach_plain _ _ (le_n _) (settled_conv s) V') as (t & Ct & St & Pt).
  assert (K : connected neologdn_change s t) by exact (con_trans _ _ _ _ C Ct).
  assert (E : neo_text s = neo_text t) by (apply (con_keeps neologdn_change neo_text); [intros a b _ _; apply neo_keeps|exact V|exact K]).
  rewrite E, run_of, (conv_settled _ St), plain_result; [exact K|exact is_base_iff|exact mate_of_iff|exact Pt].
Qed.
Lemma neo_kernel s t : valid_str s -> valid_str t -> (neo_text s = neo_text t <-> connected neologdn_change s t).
Proof. revert s t. apply (con_kernel neologdn_change neo_text (spread SPACE)); [intros s t _ _; apply neo_keeps|exact neo_reach]. Qed.
