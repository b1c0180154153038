(** C106: reading a text piece by piece. *)
From Coq Require Import String.
From Verif Require Import Base Utf8 StrOps Converter Eliminator Reducer Dotted TrimMod Ligature Neologdn ModifierKind ChanomaModel
  CharSpec Spec BaseFacts CharsetFacts ConverterFacts ConverterProps SimpleFacts SimpleProps LigFacts NeoFacts NeoProps PropsConverter PropsNeo PropsPipeline PropsLig
  CommProps EditFacts TableFacts SameSpec SameFacts SameNeo PropsSame.
Local Open Scope string_scope.
Local Open Scope list_scope.
Opaque neo_text.

(** Whatever follows [u], the result begins with [p]. *)
Definition fixed_part (c : chanoma) (u p : str) : Prop := forall v out, result c (u ++ v) out -> prefix_of p out.
(** Modifiers that never take anything back. *)
Definition immediate (m : modifier) : Prop := match m with MConv _ | MElim _ | MRed _ | MDot | MTrim => True | _ => False end.
(** How many characters at the end of the result so far can change: one for each neologdn and each dotted-space
    elimination, one less than the longest key for a ligature map whose values are no longer than their keys. *)
Inductive keeps_back : chanoma -> nat -> Prop :=
| kb_nil : keeps_back [] 0
| kb_conv cc c n : keeps_back c n -> keeps_back (MConv cc :: c) n
| kb_elim el c n : keeps_back c n -> keeps_back (MElim el :: c) n
| kb_red k c n : keeps_back c n -> keeps_back (MRed k :: c) n
| kb_dot c n : keeps_back c n -> keeps_back (MDot :: c) (S n)
| kb_neo e c n : keeps_back c n -> keeps_back (MNeo e :: c) (S n)
| kb_lig l K c n : NoDup (map fst l) -> non_interfering l -> (forall k v, In (k, v) l -> List.length k <= S K /\ List.length v <= List.length k) ->
    keeps_back c n -> keeps_back (MLig l :: c) (K + n).

(** ** Modifiers as functions *)
Definition retracts (k : nat) (f : str -> str) : Prop := forall u, exists p, forall v, exists y, f (u ++ v) = p ++ y /\ List.length y <= List.length v + k.
Lemma retracts_comp k k' f g : retracts k f -> retracts k' g -> retracts (k + k') (fun s => g (f s)).
Proof.
  intros F G u. destruct (F u) as (p & Hp). destruct (G p) as (q & Hq). exists q. intros v. destruct (Hp v) as (y & E & L). destruct (Hq y) as (z & E' & L'). exists z. rewrite E. split; [exact E'|lia].
Qed.
Lemma retracts_hom (f : str -> str) : (forall a b, f (a ++ b) = f a ++ f b) -> (forall a, List.length (f a) <= List.length a) -> retracts 0 f.
Proof. intros H L u. exists (f u). intros v. exists (f v). split; [apply H|]. specialize (L v). lia. Qed.
Lemma red_length k : forall s b, List.length (red_rec k b s) <= List.length s.
Proof. induction s as [|c s IH]; intros b; cbn [red_rec List.length]; [lia|]. pose proof (IH true). pose proof (IH false). destruct (N.eqb k c); [destruct b|]; cbn [List.length]; lia. Qed.
Lemma retracts_red k : retracts 0 (red_rec k false).
Proof. intros u. eexists. intros v. eexists. split; [apply red_app|]. rewrite Nat.add_0_r. apply red_length. Qed.
Lemma dot_length : forall s p sp, List.length (dot_rec p sp s) <= List.length s + (if sp then 1 else 0).
Proof.
  induction s as [|c s IH]; intros p sp; cbn [dot_rec List.length]; [lia|]. destruct (N.eqb c SPACE).
  - specialize (IH c (if is_ascii_alphanumeric p then true else sp)). destruct (is_ascii_alphanumeric p), sp; lia.
  - specialize (IH c false). destruct sp; [destruct (is_ascii_alphanumeric c)|]; cbn in *; lia.
Qed.
Lemma retracts_dot : retracts 1 (dot_rec SPACE false).
Proof.
  intros u. destruct (dot_app u SPACE false) as (p & E). exists p. intros v. eexists. split; [apply E|]. destruct (dot_after SPACE false u) as [x sp]. cbn [fst snd]. pose proof (dot_length v x sp). destruct sp; lia.
Qed.
Notation run := (neo_run prolonged_mark not_tilde is_base mate_of).
Notation step := (neo_step prolonged_mark not_tilde is_base mate_of).
Notation ok := (neo_ok prolonged_mark).
Lemma run_split u v : run start (u ++ v) = outs is_base mate_of start u ++ run (after is_base mate_of start u) v /\ ok (after is_base mate_of start u).
Proof. apply run_app; [exact is_base_iff|exact mate_of_iff|apply ok_start]. Qed.
Section Bound.
  Context (base : char -> bool) (mate : char -> char -> option char).
  Hypothesis base_iff : forall a, base a = true <-> exists m t, composes a m t.
  Hypothesis mate_iff : forall a m t, mate a m = Some t <-> composes a m t.
  Hypothesis base_kept : forall a, base a = true -> not_tilde a = true.
  Lemma run_length v : forall q, ok q -> List.length (neo_run prolonged_mark not_tilde base mate q v) <= List.length v + neo_pend q.
  Proof.
    induction v as [|c v IH]; intros q K.
    - rewrite run_nil. destruct q as [[p sp] b]. cbn [snd neo_pend List.length]. lia.
    - rewrite (run_cons base mate base_iff mate_iff _ _ _ K), app_length. specialize (IH _ (ok_step base mate base_iff q c K)).
      assert (P : List.length (snd (neo_step prolonged_mark not_tilde base mate q c)) + neo_pend (fst (neo_step prolonged_mark not_tilde base mate q c)) <= 1 + neo_pend q).
      { apply neo_pend_step, K. }
      cbn [List.length]. lia.
  Qed.
  Lemma pend_one q : ok q -> neo_pend q <= 1.
  Proof. destruct q as [[p sp] b]. intros (A & _). unfold neo_pend. destruct sp; [rewrite (A eq_refl); cbn; lia|]. destruct b; cbn; lia. Qed.
  (** A kana at the end of what has been written may still be taken back exactly if it is held. *)
  Lemma outs_snoc u : forall q c, outs base mate q (u ++ [c]) = outs base mate q u ++ snd (neo_step prolonged_mark not_tilde base mate (after base mate q u) c).
  Proof. induction u as [|x u IH]; intros q c; [cbn [outs app after]; rewrite app_nil_r; reflexivity|]. cbn [app outs after]. rewrite IH, app_assoc. reflexivity. Qed.
  Lemma outs_ends u : snd (after base mate start u) = None -> ~ ends_in (fun a => base a = true) (outs base mate start u).
  Proof.
    induction u as [|c u IH] using rev_ind; [intros _ E; exact (ends_nil _ E)|]. rewrite after_snoc, outs_snoc.
    destruct (after base mate start u) as [[p sp] b]. cbn [snd] in IH. unfold neo_step. destruct (N.eqb_spec prolonged_mark c) as [E|N].
    - destruct (N.eqb prolonged_mark p); cbn [fst snd]; [rewrite app_nil_r; exact IH|]. intros _ Q. rewrite app_assoc in Q. apply (proj1 (ends_snoc' _ _ _)) in Q. rewrite <- E, (long_base base base_iff) in Q. discriminate Q.
    - destruct (N.eqb c SPACE); cbn [fst snd]; [rewrite app_nil_r; exact IH|]. destruct (negb (not_tilde c)); cbn [fst snd]; [rewrite app_nil_r; exact IH|].
      destruct (match b with Some a => mate a c | None => None end) as [t|] eqn:M; cbn [fst snd].
      + intros _ Q. apply (proj1 (ends_snoc' _ _ _)) in Q. destruct b as [a|]; [|discriminate M]. apply mate_iff in M. destruct (t_plain base mate base_iff mate_iff _ _ _ M) as (Q' & _). congruence.
      + destruct (base c) eqn:B; cbn [fst snd]; [discriminate|]. intros _ Q. rewrite !app_assoc in Q. apply (proj1 (ends_snoc' _ _ _)) in Q. congruence.
  Qed.
  Lemma held_base u : forall a, snd (after base mate start u) = Some a -> base a = true.
  Proof.
    induction u as [|c u IH] using rev_ind; intros a; [discriminate|]. rewrite after_snoc. destruct (after base mate start u) as [[p sp] b]. cbn [snd] in IH. unfold neo_step. destruct (N.eqb prolonged_mark c).
    - destruct (N.eqb prolonged_mark p); cbn [fst snd]; [apply IH|discriminate].
    - destruct (N.eqb c SPACE); cbn [fst snd]; [apply IH|]. destruct (negb (not_tilde c)); cbn [fst snd]; [apply IH|]. destruct (match b with Some a => mate a c | None => None end); cbn [fst snd]; [discriminate|].
      destruct (base c) eqn:B; cbn [fst snd]; [|discriminate]. intros Q. injection Q as <-. exact B.
  Qed.
End Bound.
Lemma retracts_neo : retracts 1 neo_text.
Proof.
  intros u. exists (outs is_base mate_of start (neo_conv_text u)). intros v. exists (run (after is_base mate_of start (neo_conv_text u)) (neo_conv_text v)).
  rewrite run_of. assert (E : neo_conv_text (u ++ v) = neo_conv_text u ++ neo_conv_text v) by apply map_app. rewrite E. destruct (run_split (neo_conv_text u) (neo_conv_text v)) as [R K]. split; [exact R|].
  pose proof (run_length is_base mate_of is_base_iff mate_of_iff (neo_conv_text v) _ K) as L. pose proof (pend_one _ K) as P. assert (Lv : List.length (neo_conv_text v) = List.length v) by apply map_length. lia.
Qed.
Lemma retracts_lig l K : NoDup (map fst l) -> non_interfering l -> (forall k v, In (k, v) l -> List.length k <= S K /\ List.length v <= List.length k) -> retracts K (lig_modify o_id l).
Proof.
  intros D N B. pose proof (rules_det l D N) as Dt.
  assert (Lr : forall s out, replaced (rules l) s out -> List.length out <= List.length s).
  { intros s out H. induction H as [|k v s out Nk Hk H IH|x s out M H IH]; cbn [List.length]; [lia| |lia]. rewrite !app_length. destruct (B _ _ Hk). lia. }
  assert (G : forall n u, List.length u <= n -> exists p r, List.length r <= K /\ forall v out, replaced (rules l) (u ++ v) out -> exists y, out = p ++ y /\ replaced (rules l) (r ++ v) y).
  { induction n as [|n IH]; intros u Lu.
    - destruct u; [|cbn [List.length] in Lu; lia]. exists [], []. split; [cbn [List.length]; lia|]. intros v out H. exists out. auto.
    - destruct (Nat.le_gt_cases (List.length u) K) as [Le|Gt].
      { exists [], u. split; [exact Le|]. intros v out H. exists out. auto. }
      (* every key that begins here lies within u *)
      destruct u as [|x u]; [cbn [List.length] in Gt; lia|]. cbn [List.length] in Lu, Gt.
      assert (Dec : (exists k v, In (k, v) l /\ prefix_of k (x :: u)) \/ forall k v, In (k, v) l -> ~ prefix_of k (x :: u)).
      { clear -l. induction l as [|[k v] l' IHl]; [right; intros ? ? []|]. destruct (str_eqb (firstn (List.length k) (x :: u)) k) eqn:E.
        - left. exists k, v. split; [left; reflexivity|]. apply str_eqb_eq in E. exists (skipn (List.length k) (x :: u)). rewrite <- E at 2. rewrite E at 1. rewrite <- E at 1. rewrite E. symmetry. rewrite <- E at 1. apply firstn_skipn.
        - destruct IHl as [(k' & v' & I & P)|Q]; [left; exists k', v'; split; [right; exact I|exact P]|]. right. intros k' v' [I|I]; [|exact (Q _ _ I)]. injection I as <- <-. intros (r & Er).
          rewrite Er in E. rewrite firstn_app, Nat.sub_diag, firstn_all in E. cbn [firstn] in E. rewrite app_nil_r in E. rewrite (proj2 (str_eqb_eq k k) eq_refl) in E. discriminate E. }
      assert (In_u : forall k v w, In (k, v) l -> prefix_of k ((x :: u) ++ w) -> prefix_of k (x :: u)).
      { intros k v w I (r & E). destruct (B _ _ I) as [Lk _]. exists (skipn (List.length k) (x :: u)). assert (F : firstn (List.length k) (x :: u) = k).
        { apply (f_equal (firstn (List.length k))) in E. rewrite !firstn_app, Nat.sub_diag, firstn_all in E. cbn [firstn] in E. rewrite app_nil_r in E. replace (List.length k - List.length (x :: u)) with 0 in E by (cbn [List.length]; lia). cbn [firstn] in E. rewrite app_nil_r in E. exact E. }
        rewrite <- F at 1. symmetry. apply firstn_skipn. }
      destruct Dec as [(k & w & I & (r & E))|Q].
      + destruct (proj1 N _ _ I) as [Nk _]. destruct (IH r) as (p & r' & L' & H').
        { apply (f_equal (@List.length _)) in E. rewrite app_length in E. cbn [List.length] in E. destruct k; [contradiction|]. cbn [List.length] in E. lia. }
        exists (w ++ p), r'. split; [exact L'|]. intros v out H. pose proof (lig_replaced o_id l (r ++ v) D N) as Z. destruct (H' _ _ Z) as (y & Ey & Ry).
        exists y. split; [|exact Ry]. rewrite E, <- app_assoc in H. rewrite <- app_assoc, <- Ey. apply (replaced_det _ Dt _ _ _ H). apply rep_hit; [exact Nk|exact I|exact Z].
      + destruct (IH u ltac:(lia)) as (p & r' & L' & H'). exists (x :: p), r'. split; [exact L'|]. intros v out H. pose proof (lig_replaced o_id l (u ++ v) D N) as Z. destruct (H' _ _ Z) as (y & Ey & Ry).
        exists y. split; [|exact Ry]. cbn [app]. rewrite <- Ey. apply (replaced_det _ Dt _ _ _ H). cbn [app]. apply rep_miss; [|exact Z]. intros k v' I P. exact (Q k v' I (In_u k v' v I P)). }
  intros u. destruct (G _ u (le_n _)) as (p & r & Lr' & H). exists p. intros v. destruct (H v _ (lig_replaced o_id l (u ++ v) D N)) as (y & E & R). exists y. split; [exact E|]. apply Lr in R. rewrite app_length in R. lia.
Qed.

(** ** Pipelines *)
Lemma constructible_neo e : constructible (MNeo e) -> MNeo e = MNeo NEO.
Proof. intros C. destruct (C e eq_refl) as (o & H). rewrite neologdn_new_eq in H. apply Ok_inj in H. rewrite H. reflexivity. Qed.
Lemma keeps_does c n : Forall constructible c -> keeps_back c n -> exists f, (forall s out, result c s out <-> out = f s) /\ retracts n f.
Proof.
  intros C H. assert (X : forall m c f g, does m f -> (forall s out, result c s out <-> out = g s) -> forall s out, result (m :: c) s out <-> out = g (f s)).
  { clear. intros m c f g D G s out. change (m :: c) with ([m] ++ c). rewrite result_app. split; [intros (mid & A & B); apply D in A; apply G in B; congruence|intros ->; exists (f s); split; [apply D|apply G]; reflexivity]. }
  induction H as [|cc c n H IH|el c n H IH|k c n H IH|c n H IH|e c n H IH|l K c n D N B H IH].
  { exists (fun s => s). split; [|intros u; exists u; intros v; exists v; split; [reflexivity|lia]]. intros s out. unfold result, normalize. cbn. split; [intros (o & E); congruence|intros ->; exists no_order; reflexivity]. }
  all: inversion C as [|? ? Cm Cc]; subst; destruct (IH Cc) as (g & G & R).
  - exists (fun s => g (map (conv1 cc) s)). split; [apply X; [apply does_conv|exact G]|]. apply (retracts_comp 0 n); [|exact R]. apply retracts_hom; [intros; apply map_app|intros; rewrite map_length; lia].
  - exists (fun s => g (filter (fun x => negb (mem N.eqb x el)) s)). split; [apply (X _ _ _ _ (does_elim el) G)|]. apply (retracts_comp 0 n); [|exact R]. apply retracts_hom; [intros; apply filter_app|]. intros a. induction a as [|x a IHa]; cbn [filter List.length]; [lia|]. destruct (negb _); cbn [List.length]; lia.
  - exists (fun s => g (red_rec k false s)). split; [apply (X _ _ _ _ (does_red k) G)|]. apply (retracts_comp 0 n); [apply retracts_red|exact R].
  - exists (fun s => g (dot_rec SPACE false s)). split; [apply (X _ _ _ _ does_dot G)|]. apply (retracts_comp 1 n); [apply retracts_dot|exact R].
  - rewrite (constructible_neo e Cm). exists (fun s => g (neo_text s)). split; [apply (X _ _ _ _ does_neologdn G)|]. apply (retracts_comp 1 n); [apply retracts_neo|exact R].
  - exists (fun s => g (lig_modify o_id l s)). split; [apply (X _ _ _ _ (does_ligatures l D N) G)|]. apply (retracts_comp K n); [apply retracts_lig; assumption|exact R].
Qed.
Lemma trim_extends u v : prefix_of (trim_modify u) (trim_modify (u ++ v)).
Proof.
  destruct (trim_modify_trimmed u) as (A & B & a & b & E). remember (trim_modify u) as t eqn:Eu. clear Eu. destruct t as [|x t0]; [exists (trim_modify (u ++ v)); reflexivity|]. remember (x :: t0) as t eqn:Et.
  destruct (trim_modify_trimmed (repeat space b ++ v)) as (A' & B' & a' & b' & E'). remember (trim_modify (repeat space b ++ v)) as o eqn:Eq. clear Eq.
  assert (W : exists w n, repeat space b ++ v = w ++ repeat space n /\ hd_error (rev w) <> Some space).
  { destruct o as [|y o'].
    - exists [], (a' + b'). split; [rewrite E'; cbn [app]; rewrite repeat_app; reflexivity|discriminate].
    - remember (y :: o') as o eqn:Eo. exists (repeat space a' ++ o), b'. split; [rewrite E', app_assoc; reflexivity|]. rewrite rev_app_distr. assert (N : rev o <> []) by (intros Q; apply (f_equal (@List.length _)) in Q; rewrite rev_length, Eo in Q; discriminate Q).
      destruct (rev o) as [|z r]; [contradiction|]. exact B'. }
  destruct W as (w & n & Ew & Nw). exists w. apply (trimmed_unique (u ++ v)); [apply trim_modify_trimmed|]. split; [|split].
  - rewrite Et in *. exact A.
  - rewrite rev_app_distr. destruct (rev w) as [|z r]; [exact B|exact Nw].
  - exists a, n. rewrite E at 1. rewrite <- !app_assoc. do 2 f_equal. rewrite <- Ew. reflexivity.
Qed.
Lemma prefix_trans (a b c : str) : prefix_of a b -> prefix_of b c -> prefix_of a c.
Proof. intros (x & ->) (y & ->). exists (x ++ y). symmetry. apply app_assoc. Qed.
Lemma retracts_extends f : retracts 0 f -> forall u v, prefix_of (f u) (f (u ++ v)).
Proof.
  intros R u v. destruct (R u) as (p & H). destruct (H []) as (y & E & L). destruct y; [|cbn [List.length] in L; lia]. rewrite !app_nil_r in E. destruct (H v) as (z & E' & _). rewrite E, E'. exists z. reflexivity.
Qed.
Lemma dot_extends u v : prefix_of (dot_rec SPACE false u) (dot_rec SPACE false (u ++ v)).
Proof. destruct (dot_app u SPACE false) as (p & E). rewrite E. specialize (E []). rewrite !app_nil_r in E. rewrite E. eexists. reflexivity. Qed.
Lemma immediate_does m : immediate m -> exists f, does m f /\ forall u v, prefix_of (f u) (f (u ++ v)).
Proof.
  destruct m as [cc|el|k| |l| |e]; try contradiction; intros _.
  - exists (map (conv1 cc)). split; [apply does_conv|]. intros u v. rewrite map_app. eexists. reflexivity.
  - eexists. split; [apply does_elim|]. intros u v. rewrite filter_app. eexists. reflexivity.
  - eexists. split; [apply does_red|]. apply retracts_extends, retracts_red.
  - eexists. split; [apply does_dot|]. apply dot_extends.
  - eexists. split; [apply does_trim|]. apply trim_extends.
Qed.
Lemma immediate_all c : Forall immediate c -> exists f, (forall s out, result c s out <-> out = f s) /\ forall u v, prefix_of (f u) (f (u ++ v)).
Proof.
  induction 1 as [|m c Hm H (g & G & P)].
  - exists (fun s => s). split; [|intros u v; exists v; reflexivity]. intros s out. unfold result, normalize. cbn. split; [intros (o & E); congruence|intros ->; exists no_order; reflexivity].
  - destruct (immediate_does m Hm) as (f & D & Q). exists (fun s => g (f s)). split.
    + intros s out. change (m :: c) with ([m] ++ c). rewrite result_app. split; [intros (mid & A & B); apply D in A; apply G in B; congruence|intros ->; exists (f s); split; [apply D|apply G]; reflexivity].
    + intros u v. destruct (Q u v) as (y & ->). apply P.
Qed.

(** ** Results grow *)
Theorem C106_extends : forall c, Forall immediate c -> forall u v out out', result c u out -> result c (u ++ v) out' -> prefix_of out out'.
Proof. intros c H u v out out' R R'. destruct (immediate_all c H) as (f & D & P). apply D in R. apply D in R'. subst. apply P. Qed.
Print Assumptions C106_extends.
(** Behind such modifiers, the others but for trimming take back a bounded part only. *)
Theorem C106_piecewise : forall c1 c2 n, Forall immediate c1 -> Forall constructible c2 -> keeps_back c2 n ->
  forall u, exists p, fixed_part (c1 ++ c2) u p /\ forall out, result (c1 ++ c2) u out -> exists x, out = p ++ x /\ List.length x <= n.
Proof.
  intros c1 c2 n I C K u. destruct (immediate_all c1 I) as (f & Df & P). destruct (keeps_does c2 n C K) as (g & Dg & R). destruct (R (f u)) as (p & H).
  assert (D : forall s out, result (c1 ++ c2) s out -> out = g (f s)) by (intros s out Q; apply result_app in Q as (mid & A & B); apply Df in A; apply Dg in B; congruence).
  exists p. split.
  - intros v out Q. apply D in Q. destruct (P u v) as (y & E). rewrite E in Q. destruct (H y) as (z & E' & _). exists z. congruence.
  - intros out Q. apply D in Q. destruct (H []) as (z & E & L). rewrite app_nil_r in E. exists z. split; [congruence|cbn [List.length] in L; lia].
Qed.
Print Assumptions C106_piecewise.

(** ** neologdn: exactly what is fixed *)
Definition composable (a : char) : Prop := exists m t, composes a m t.
Lemma marks_stay m a t : composes a m t -> neo_conv_text [m] = [m].
Proof. intros [[-> _]|[-> _]]; vm_compute; reflexivity. Qed.
Lemma neo_after u : exists w b, (forall v, neo_text (u ++ v) = w ++ run (after is_base mate_of start (neo_conv_text u)) (neo_conv_text v)) /\ neo_text u = w ++ held b /\
  (b = None -> ~ ends_in composable w) /\ (forall a, b = Some a -> composable a /\ forall m t, composes a m t -> neo_text (u ++ [m]) = w ++ [t]).
Proof.
  set (q := after is_base mate_of start (neo_conv_text u)). set (w := outs is_base mate_of start (neo_conv_text u)). exists w, (snd q).
  assert (E : forall v, neo_text (u ++ v) = w ++ run q (neo_conv_text v)).
  { intros v. rewrite run_of. assert (E : neo_conv_text (u ++ v) = neo_conv_text u ++ neo_conv_text v) by apply map_app. rewrite E. apply run_split. }
  split; [exact E|]. split; [|split].
  - specialize (E []). rewrite app_nil_r in E. rewrite E. assert (Z : neo_conv_text [] = []) by reflexivity. rewrite Z, run_nil. reflexivity.
  - intros Q X. apply (outs_ends is_base mate_of is_base_iff mate_of_iff (neo_conv_text u) Q). destruct X as (c & Ec & Pc). exists c. split; [exact Ec|]. apply is_base_iff. exact Pc.
  - intros a Q. split.
    + apply is_base_iff. apply (held_base is_base mate_of (neo_conv_text u) a Q).
    + intros m t C. rewrite E, (marks_stay m a t C). f_equal. destruct (run_split (neo_conv_text u) []) as [_ K]. fold q in K.
      destruct q as [[p sp] b]. cbn [snd] in Q. subst b. rewrite (run_cons is_base mate_of is_base_iff mate_of_iff _ _ _ K). pose proof (composes_facts _ _ _ C) as F. unfold neo_step.
      destruct (N.eqb_spec prolonged_mark m) as [X|_]; [destruct (ef_m_long _ _ _ F); congruence|]. destruct (N.eqb_spec m SPACE) as [X|_]; [destruct (ef_m_space _ _ _ F); congruence|].
      rewrite (mark_tilde _ _ _ C). cbn [negb]. rewrite (proj2 (mate_of_iff a m t) C). cbn [fst snd]. rewrite run_nil. reflexivity.
Qed.
Lemma prefix_two (w p : str) a t : t <> a -> prefix_of p (w ++ [a]) -> prefix_of p (w ++ [t]) -> prefix_of p w.
Proof.
  intros N (x & E) (y & E'). destruct x as [|c x _] using rev_ind.
  - rewrite app_nil_r in E. subst p. apply (f_equal (fun l => nth_error l (List.length w))) in E'. rewrite <- app_assoc in E'. rewrite !nth_error_app2, Nat.sub_diag in E' by lia. cbn in E'. congruence.
  - rewrite app_assoc in E. apply app_inj_tail in E as [E _]. exists x. exact E.
Qed.
Theorem C106_neologdn : forall o ch, chanoma_neologdn o = Ok ch -> forall u out, result ch u out ->
  (~ ends_in composable out -> forall p, fixed_part ch u p <-> prefix_of p out) /\
  (forall w a, out = w ++ [a] -> composable a -> forall p, fixed_part ch u p <-> prefix_of p w).
Proof.
  intros o ch H. rewrite chanoma_neologdn_eq in H. apply Ok_inj in H. rewrite <- H. clear o ch H. intros u out R. apply does_neologdn in R. destruct (neo_after u) as (w & b & E & E0 & N & S). rewrite <- R in E0.
  assert (Fx : forall p, fixed_part [MNeo NEO] u p <-> forall v, prefix_of p (neo_text (u ++ v))).
  { intros p. split; [intros F v; apply (F v); apply does_neologdn; reflexivity|intros F v x Q; apply does_neologdn in Q; rewrite Q; apply F]. }
  assert (Fw : forall p, prefix_of p w -> fixed_part [MNeo NEO] u p) by (intros p (x & Q); apply Fx; intros v; rewrite E, Q; exists (x ++ run (after is_base mate_of start (neo_conv_text u)) (neo_conv_text v)); rewrite app_assoc; reflexivity).
  assert (Fo : forall p, fixed_part [MNeo NEO] u p -> prefix_of p out) by (intros p F; apply Fx with (v := []) in F; rewrite app_nil_r, <- R in F; exact F).
  split.
  - intros Ne p. split; [apply Fo|]. intros P. apply Fw. destruct b as [a|]; cbn [held] in E0; [|rewrite app_nil_r in E0; rewrite <- E0; exact P].
    destruct Ne. rewrite E0. apply ends_snoc', (S a eq_refl).
  - intros w' a Eo C p. destruct b as [a'|]; cbn [held] in E0.
    + rewrite E0 in Eo. apply app_inj_tail in Eo as [-> ->]. split; [|apply Fw]. intros F. destruct C as (m & t & C). apply (prefix_two w' p a t).
      * intros Q. pose proof (ef_t_key _ _ _ (composes_facts _ _ _ C) [a; m] [t]) as K. apply K; [apply lig_rel; eauto 6|left; congruence].
      * rewrite <- E0. apply Fo, F.
      * apply Fx with (v := [m]) in F. destruct (S a eq_refl) as [_ T]. rewrite (T m t C) in F. exact F.
    + rewrite app_nil_r in E0. destruct (N eq_refl). rewrite <- E0, Eo. apply ends_snoc', C.
Qed.
Print Assumptions C106_neologdn.

(** ** Trimming behind neologdn takes back any number of characters *)
Definition few : list char := [0x61; 0x7A; 0x304B; 0x304C]%N.
Lemma few_settled s : incl s (0x309B%N :: few) -> settled s.
Proof. intros I c t H R. apply NEO_get in R. apply I in H. cbn in H. repeat (destruct H as [<-|H]; [vm_compute in R; discriminate R|]). destruct H. Qed.
Lemma few_fix s : incl s few -> neo_text s = s.
Proof.
  intros I. assert (J : forall c, In c s -> c <> prolonged_mark /\ c <> space /\ ~ In c tilde_variants /\ c <> voiced_mark /\ c <> semivoiced_mark).
  { intros c H. apply I in H. cbn in H. repeat (destruct H as [<-|H]; [repeat split; try discriminate; cbn; intuition discriminate|]). destruct H. }
  apply neo_fix. split; [split; [|split; [|split]]|].
  - apply few_settled. intros c H. right. apply I, H.
  - intros c H. apply J, H.
  - intros a m t C (i & x & y & E & _). assert (H : In m s) by (rewrite E, in_app_iff; right; right; left; reflexivity). destruct (J m H) as (_ & _ & _ & A & B). destruct C as [[C _]|[C _]]; contradiction.
  - intros x y E. assert (H : In space s) by (rewrite E, in_app_iff; right; left; reflexivity). destruct (J _ H) as (_ & Q & _). destruct Q. reflexivity.
  - intros (i & x & y & E & _). assert (H : In prolonged_mark s) by (rewrite E, in_app_iff; right; left; reflexivity). destruct (J _ H) as (Q & _). destruct Q. reflexivity.
Qed.
Definition blanks : list (char * char) := [(0x7A, 0x20); (0x304C, 0x20)]%N.
Theorem C106_trim_refuted : exists c, Forall constructible c /\ forall n, exists u out, valid_str u /\ result c u out /\ forall p, fixed_part c u p -> List.length p + n <= List.length out.
Proof.
  exists [MNeo NEO; MConv blanks; MTrim]. split.
  { constructor; [|constructor; [intros e E; discriminate E|constructor; [intros e E; discriminate E|constructor]]].
    intros e E. exists no_order. assert (H : forall m m', MNeo m = MNeo m' -> m = m') by (intros m m' Q; inversion Q; reflexivity). apply H in E. rewrite <- E. apply neologdn_new_eq. }
  assert (D : forall s out, result [MNeo NEO; MConv blanks; MTrim] s out <-> out = trim_modify (map (conv1 blanks) (neo_text s))).
  { intros s out. change [MNeo NEO; MConv blanks; MTrim] with ([MNeo NEO] ++ [MConv blanks] ++ [MTrim]). rewrite result_app. split.
    - intros (m1 & A & B). apply result_app in B as (m2 & B & C). apply does_neologdn in A. apply does_conv in B. apply does_trim in C. congruence.
    - intros ->. exists (neo_text s). split; [apply does_neologdn; reflexivity|]. apply result_app. eexists. split; [apply does_conv; reflexivity|apply does_trim; reflexivity]. }
  intros n. set (w := (0x61 :: repeat 0x7A n)%N). exists (w ++ [0x304B%N]), (0x61%N :: repeat space n ++ [0x304B%N]).
  assert (Wi : incl w few).
  { intros c [<-|H]; [left; reflexivity|]. apply repeat_spec in H. subst c. right. left. reflexivity. }
  assert (Map : forall k, map (conv1 blanks) (repeat 0x7A%N k) = repeat space k) by (induction k as [|k IH]; [reflexivity|cbn [repeat map]; rewrite IH; reflexivity]).
  split; [|split].
  - apply valid_parts. split; [|repeat constructor]. constructor; [reflexivity|]. apply Forall_forall. intros c H. apply repeat_spec in H. subst c. reflexivity.
  - apply D. rewrite few_fix by (apply incl_app; [exact Wi|intros c [<-|[]]; cbn; tauto]). unfold w. rewrite map_app. cbn [map]. rewrite Map. change (conv1 blanks 0x61%N) with 0x61%N. change (conv1 blanks 0x304B%N) with 0x304B%N.
    apply (trimmed_unique (0x61%N :: repeat space n ++ [0x304B%N])); [|apply trim_modify_trimmed]. split; [discriminate|]. split; [cbn [rev]; rewrite rev_app_distr; discriminate|]. exists 0, 0. cbn [repeat app]. rewrite app_nil_r. reflexivity.
  - intros p F. assert (R : result [MNeo NEO; MConv blanks; MTrim] ((w ++ [0x304B%N]) ++ [0x309B%N]) [0x61%N]).
    { apply D. rewrite <- app_assoc. change ([0x304B%N] ++ [0x309B%N]) with [0x304B%N; 0x309B%N].
      assert (C : composes 0x304B%N 0x309B%N 0x304C%N) by (apply mate_of_iff; vm_compute; reflexivity).
      assert (E : neo_text (w ++ [0x304B%N; 0x309B%N]) = neo_text (w ++ [0x304C%N])).
      { apply neo_keeps, nc_local.
        - apply few_settled, incl_app; [intros c H; right; apply Wi, H|intros c [<-|[<-|[]]]; cbn; tauto].
        - apply few_settled, incl_app; [intros c H; right; apply Wi, H|intros c [<-|[]]; cbn; tauto].
        - pose proof (nl_compose _ _ _ w [] C) as Q. exact Q. }
      rewrite E, few_fix by (apply incl_app; [exact Wi|intros c [<-|[]]; cbn; tauto]). unfold w. rewrite map_app. cbn [map]. rewrite Map.
      apply (trimmed_unique (0x61%N :: repeat space n ++ [space])); [|apply trim_modify_trimmed]. split; [discriminate|]. split; [discriminate|]. exists 0, (S n). cbn [repeat app]. f_equal. rewrite <- repeat_cons. reflexivity. }
    destruct (F _ _ R) as (x & E). apply (f_equal (@List.length _)) in E. rewrite app_length in E. cbn [List.length] in *. rewrite app_length, repeat_length. cbn [List.length]. lia.
Qed.
Print Assumptions C106_trim_refuted.

(** Two neologdn can take back two characters: ho, ka become ho, ka with a mark behind them: ho, ga, then (by a table) ho and
    a mark, then bo. *)
Example C106_two : let c := [MNeo NEO; MConv [(0x304C, 0x309B)]%N; MNeo NEO] in
  keeps_back c 2 /\ result c [0x307B; 0x304B]%N [0x307B; 0x304B]%N /\ result c [0x307B; 0x304B; 0x309B]%N [0x307C]%N.
Proof.
  cbv zeta. split; [repeat constructor|].
  assert (D : forall s, result [MNeo NEO; MConv [(0x304C, 0x309B)]%N; MNeo NEO] s (neo_text (map (conv1 [(0x304C, 0x309B)]%N) (neo_text s)))).
  { intros s. change [MNeo NEO; MConv [(0x304C, 0x309B)]%N; MNeo NEO] with ([MNeo NEO] ++ [MConv [(0x304C, 0x309B)]%N] ++ [MNeo NEO]). apply result_app. exists (neo_text s). split; [apply does_neologdn; reflexivity|].
    apply result_app. eexists. split; [apply does_conv; reflexivity|apply does_neologdn; reflexivity]. }
  split.
  - specialize (D [0x307B; 0x304B]%N). assert (E : neo_text (map (conv1 [(0x304C, 0x309B)]%N) (neo_text [0x307B; 0x304B]%N)) = [0x307B; 0x304B]%N) by (rewrite !run_of; vm_compute; reflexivity). rewrite E in D. exact D.
  - specialize (D [0x307B; 0x304B; 0x309B]%N). assert (E : neo_text (map (conv1 [(0x304C, 0x309B)]%N) (neo_text [0x307B; 0x304B; 0x309B]%N)) = [0x307C]%N) by (rewrite !run_of; vm_compute; reflexivity). rewrite E in D. exact D.
Qed.
(** neologdn: of "a ka" only the a is fixed; behind "a i" everything is. *)
Example C106_neologdn_case : forall o ch, chanoma_neologdn o = Ok ch -> (forall p, fixed_part ch [0x61; 0x304B]%N p <-> prefix_of p [0x61]%N) /\ (forall p, fixed_part ch [0x304B; 0x61]%N p <-> prefix_of p [0x304B; 0x61]%N).
Proof.
  intros o ch H. assert (R : forall s, incl s few -> result ch s s).
  { intros s I. rewrite chanoma_neologdn_eq in H. apply Ok_inj in H. rewrite <- H. apply does_neologdn. symmetry. apply few_fix, I. }
  assert (R1 : result ch [0x61; 0x304B]%N [0x61; 0x304B]%N) by (apply R; intros c [<-|[<-|[]]]; cbn; tauto).
  assert (R2 : result ch [0x304B; 0x61]%N [0x304B; 0x61]%N) by (apply R; intros c [<-|[<-|[]]]; cbn; tauto).
  split.
  - apply (proj2 (C106_neologdn o ch H _ _ R1)) with (a := 0x304B%N); [reflexivity|]. exists 0x309B%N, 0x304C%N. apply mate_of_iff. vm_compute. reflexivity.
  - apply (proj1 (C106_neologdn o ch H _ _ R2)). intros (c & E & m & t & C). injection E as <-. assert (B : is_base 0x61%N = true) by (apply is_base_iff; exists m, t; exact C). vm_compute in B. discriminate B.
Qed.
(** A ligature map with keys of two characters takes back one. *)
Example C106_ligature_case : keeps_back [MLig [(lit "ab", lit "x")]] 1 /\
  forall c1, Forall immediate c1 -> forall u, exists p, fixed_part (c1 ++ [MLig [(lit "ab", lit "x")]]) u p /\ forall out, result (c1 ++ [MLig [(lit "ab", lit "x")]]) u out -> exists x, out = p ++ x /\ List.length x <= 1.
Proof.
  assert (K : keeps_back [MLig [(lit "ab", lit "x")]] 1).
  { destruct C105_ligature_map as (A & B & _). apply (kb_lig _ 1 [] 0); [exact A|exact B| |constructor]. intros k v [E|[]]. injection E as <- <-. cbn. lia. }
  split; [exact K|]. intros c1 I. apply C106_piecewise; [exact I| |exact K]. constructor; [intros e E; discriminate E|constructor].
Qed.
