(** Lemmas for C105: texts connected by small changes. *)
From Verif Require Import Base Utf8 StrOps Converter Eliminator Reducer Dotted TrimMod Ligature CharSpec Spec BaseFacts SimpleFacts LigFacts EditSpec EditFacts EditLig CharsetFacts SameSpec.

Lemma valid_parts a b : valid_str (a ++ b) <-> valid_str a /\ valid_str b.
Proof. apply Forall_app. Qed.
Section Connected.
  Context (change : str -> str -> Prop).
  Lemma con_valid s t : valid_str s -> connected change s t -> valid_str t.
  Proof. intros V H. induction H; auto. Qed.
  Lemma con_trans s t u : connected change s t -> connected change t u -> connected change s u.
  Proof. intros H H'. induction H' as [|a b _ IH C V|a b _ IH C V]; [exact H|exact (con_done _ _ a b IH C V)|exact (con_undone _ _ a b IH C V)]. Qed.
  Lemma con_do s t : change s t -> valid_str t -> connected change s t.
  Proof. intros H V. exact (con_done _ _ s t (con_same _ _) H V). Qed.
  Lemma con_undo s t : change t s -> valid_str t -> connected change s t.
  Proof. intros H V. exact (con_undone _ _ s t (con_same _ _) H V). Qed.
  Lemma con_sym s t : valid_str s -> connected change s t -> connected change t s.
  Proof.
    intros V H. induction H as [|a b H IH C Vb|a b H IH C Vb]; [constructor| |]; pose proof (con_valid _ _ V H) as Va.
    - exact (con_trans _ _ _ (con_undo _ _ C Va) IH).
    - exact (con_trans _ _ _ (con_do _ _ C Va) IH).
  Qed.
  Lemma con_keeps (f : str -> str) : (forall s t, valid_str s -> valid_str t -> change s t -> f s = f t) ->
    forall s t, valid_str s -> connected change s t -> f s = f t.
  Proof.
    intros K s t V H. induction H as [|a b H IH C Vb|a b H IH C Vb]; [reflexivity| |]; pose proof (con_valid _ _ V H) as Va; rewrite IH.
    - apply K; assumption.
    - symmetry. apply K; assumption.
  Qed.
  (** If changes do not show and every text is connected to a text that its result determines, then connected means same result. *)
  Lemma con_kernel (f g : str -> str) : (forall s t, valid_str s -> valid_str t -> change s t -> f s = f t) ->
    (forall s, valid_str s -> connected change s (g (f s))) ->
    forall s t, valid_str s -> valid_str t -> (f s = f t <-> connected change s t).
  Proof.
    intros K N s t Vs Vt. split; [|apply con_keeps; assumption]. intros E. apply (con_trans _ _ _ (N s Vs)). rewrite E. apply con_sym; [exact Vt|apply N, Vt].
  Qed.
End Connected.

(** ** Elimination *)
Lemma drop_all el : forall s u, valid_str (u ++ s) -> connected (drop_one el) (u ++ s) (u ++ filter (fun c => negb (mem N.eqb c el)) s).
Proof.
  induction s as [|c s IH]; intros u V; cbn [filter]; [constructor|]. destruct (mem N.eqb c el) eqn:E; cbn [negb].
  - apply con_trans with (t := u ++ s).
    + apply con_do; [|apply valid_parts in V as [Vu V]; inversion V; subst; apply valid_parts; auto]. apply (drop_here el c u s). apply (mem_In N.eqb N.eqb_eq). exact E.
    + apply IH. apply valid_parts in V as [Vu V]. inversion V; subst. apply valid_parts. auto.
  - specialize (IH (u ++ [c])). rewrite <- !app_assoc in IH. cbn [app] in IH. apply IH, V.
Qed.

(** ** Runs *)
Lemma merge_all k : forall s u b, (b = true -> exists w, u = w ++ [k]) -> valid_str (u ++ s) -> connected (merge_two k) (u ++ s) (u ++ red_rec k b s).
Proof.
  induction s as [|c s IH]; intros u b B V; cbn [red_rec]; [constructor|]. destruct (N.eqb_spec k c) as [Ec|Nc].
  - rewrite <- Ec in *. clear c Ec. destruct b.
    + destruct (B eq_refl) as (w & ->). apply con_trans with (t := (w ++ [k]) ++ s).
      * apply con_do; [rewrite <- !app_assoc; cbn [app]; apply (merge_here k w s)|]. apply valid_parts in V as [Vu V]. inversion V; subst. apply valid_parts. auto.
      * apply IH; [eauto|]. apply valid_parts in V as [Vu V]. inversion V; subst. apply valid_parts. auto.
    + specialize (IH (u ++ [k]) true). rewrite <- !app_assoc in IH. cbn [app] in IH. apply IH; eauto.
  - specialize (IH (u ++ [c]) false). rewrite <- !app_assoc in IH. cbn [app] in IH. apply IH; [discriminate|exact V].
Qed.
Lemma red_app k : forall u s b, red_rec k b (u ++ s) = red_rec k b u ++ red_rec k (match rev u with [] => b | c :: _ => N.eqb k c end) s.
Proof.
  induction u as [|c u IH]; intros s b; [reflexivity|]. cbn [app red_rec].
  assert (L : forall b', match rev (c :: u) with [] => b' | x :: _ => N.eqb k x end = match rev u with [] => N.eqb k c | x :: _ => N.eqb k x end) by (intros b'; cbn [rev]; destruct (rev u); reflexivity).
  rewrite (L b). destruct (N.eqb k c) eqn:E; [destruct b|]; cbn [app]; rewrite IH; reflexivity.
Qed.

(** ** Spaces *)
Lemma begins_cons P c (s : str) : begins_in P (c :: s) <-> P c.
Proof. split; [intros (x & E & H); injection E as ->; exact H|intros H; exists c; auto]. Qed.
Lemma begins_nil P : ~ begins_in P [].
Proof. intros (x & E & _). discriminate E. Qed.
Lemma ends_snoc' P c (u : str) : ends_in P (u ++ [c]) <-> P c.
Proof. unfold ends_in. rewrite rev_app_distr. apply (begins_cons P c (rev u)). Qed.
Lemma ends_nil P : ~ ends_in P [].
Proof. intros (x & E & _). discriminate E. Qed.
Lemma not_alnum c : is_ascii_alphanumeric c = false -> ~ alnum c.
Proof. intros E A. apply is_alnum_spec in A. congruence. Qed.

Lemma close_all : forall s u p sp, (sp = true -> ends_in alnum u /\ is_ascii_alphanumeric p = false) -> (sp = false -> (alnum p <-> ends_in alnum u)) ->
  valid_str (u ++ s) -> connected close_gap (u ++ (if sp then [SPACE] else []) ++ s) (u ++ dot_rec p sp s).
Proof.
  assert (VS : valid_str [SPACE]) by (repeat constructor).
  assert (X : forall u s, valid_str (u ++ s) -> ~ (ends_in alnum u /\ begins_in alnum s) -> connected close_gap (u ++ [SPACE] ++ s) (u ++ s)).
  { intros u s V N. apply con_do; [|exact V]. exact (close_here u s N). }
  induction s as [|c s IH]; intros u p sp T F V.
  - cbn [dot_rec]. destruct sp; [|constructor]. apply X; [exact V|]. intros [_ B]. exact (begins_nil _ B).
  - assert (Vc : valid_str (u ++ s)) by (apply valid_parts in V as [Vu V]; inversion V; subst; apply valid_parts; auto).
    assert (Vc' : valid_str ((u ++ [c]) ++ s)) by (rewrite <- app_assoc; exact V).
    cbn [dot_rec]. destruct (N.eqb_spec c SPACE) as [Ec|Nc].
    + rewrite Ec in *. clear c Ec. destruct sp.
      * destruct (T eq_refl) as [E A]. rewrite A. apply con_trans with (t := u ++ [SPACE] ++ s).
        { specialize (X (u ++ [SPACE]) s Vc'). rewrite <- !app_assoc in X. apply X. rewrite ends_snoc'. intros [Q _]. apply is_alnum_spec in Q. discriminate Q. }
        apply (IH u SPACE true); auto. discriminate.
      * destruct (is_ascii_alphanumeric p) eqn:A.
        { apply (IH u SPACE true); [|discriminate|exact Vc]. intros _. split; [apply F; [reflexivity|apply is_alnum_spec, A]|reflexivity]. }
        assert (NE : ~ ends_in alnum u) by (intros Q; apply F in Q; [apply is_alnum_spec in Q; congruence|reflexivity]).
        apply con_trans with (t := u ++ s); [apply (X u s Vc); intros [Q _]; contradiction|].
        apply (IH u SPACE false); [discriminate| |exact Vc]. intros _. split; [intros Q; apply is_alnum_spec in Q; discriminate Q|contradiction].
    + assert (G : connected close_gap (u ++ c :: s) (u ++ c :: dot_rec c false s)).
      { specialize (IH (u ++ [c]) c false). cbn [app] in IH. rewrite <- !app_assoc in IH. cbn [app] in IH. apply IH; [discriminate| |exact V]. intros _. rewrite ends_snoc'. reflexivity. }
      destruct sp; [|exact G]. destruct (is_ascii_alphanumeric c) eqn:A.
      * cbn [app]. specialize (IH (u ++ [SPACE; c]) c false). cbn [app] in IH. rewrite <- !app_assoc in IH. cbn [app] in IH. apply IH; [discriminate| |].
        { intros _. change [SPACE; c] with ([SPACE] ++ [c]). rewrite app_assoc, ends_snoc'. reflexivity. }
        change (u ++ SPACE :: c :: s) with (u ++ [SPACE] ++ c :: s). apply valid_parts in V as [Vu V]. apply valid_parts. split; [exact Vu|]. apply valid_parts. auto.
      * apply con_trans with (t := u ++ c :: s); [|exact G]. apply (X u (c :: s) V). rewrite begins_cons. intros [_ Q]. exact (not_alnum c A Q).
Qed.

(** Reading a text up to a place: the last character, and whether a space is being held back. *)
Fixpoint dot_after (p : char) (sp : bool) (u : str) : char * bool :=
  match u with
  | [] => (p, sp)
  | c :: r => if N.eqb c SPACE then dot_after SPACE (if is_ascii_alphanumeric p then true else sp) r else dot_after c false r
  end.
Lemma dot_app : forall u p sp, exists out, forall s, dot_rec p sp (u ++ s) = out ++ dot_rec (fst (dot_after p sp u)) (snd (dot_after p sp u)) s.
Proof.
  induction u as [|c u IH]; intros p sp; [exists []; reflexivity|]. cbn [app dot_rec dot_after]. destruct (N.eqb_spec c SPACE) as [->|N].
  - destruct (IH SPACE (if is_ascii_alphanumeric p then true else sp)) as (out & E). exists out. exact E.
  - destruct (IH c false) as (out & E). exists ((if sp then if is_ascii_alphanumeric c then [SPACE] else [] else []) ++ c :: out). intros s. rewrite E, <- app_assoc. reflexivity.
Qed.
Lemma dot_after_snoc : forall u p sp c, dot_after p sp (u ++ [c]) = let q := dot_after p sp u in if N.eqb c SPACE then (SPACE, if is_ascii_alphanumeric (fst q) then true else snd q) else (c, false).
Proof. induction u as [|x u IH]; intros p sp c; cbn [app dot_after]; [destruct (N.eqb c SPACE); reflexivity|]. destruct (N.eqb x SPACE); apply IH. Qed.
Lemma dot_after_ends u : is_ascii_alphanumeric (fst (dot_after SPACE false u)) = true -> ends_in alnum u.
Proof.
  induction u as [|c u _] using rev_ind; [discriminate|]. rewrite dot_after_snoc. cbv zeta. destruct (N.eqb c SPACE); cbn [fst]; [discriminate|]. intros A. apply ends_snoc'. apply is_alnum_spec, A.
Qed.
Lemma close_keeps u v : ~ (ends_in alnum u /\ begins_in alnum v) -> dot_rec SPACE false (u ++ [SPACE] ++ v) = dot_rec SPACE false (u ++ v).
Proof.
  intros N. destruct (dot_app u SPACE false) as (out & E). rewrite !E. f_equal. pose proof (dot_after_ends u) as A. destruct (dot_after SPACE false u) as [p sp]. cbn [fst snd] in *. cbn [app dot_rec]. rewrite N.eqb_refl.
  destruct v as [|c v]; [reflexivity|]. cbn [dot_rec]. destruct (N.eqb c SPACE).
  - destruct (is_ascii_alphanumeric p); reflexivity.
  - destruct (is_ascii_alphanumeric p); [|reflexivity]. assert (is_ascii_alphanumeric c = false) as ->; [|destruct sp; reflexivity].
    destruct (is_ascii_alphanumeric c) eqn:B; [|reflexivity]. destruct N. split; [apply A; reflexivity|apply begins_cons; apply is_alnum_spec, B].
Qed.

(** ** Trimming *)
Lemma peel_all s : valid_str s -> connected peel s (trim_modify s).
Proof.
  intros V. destruct (trim_modify_trimmed s) as (_ & _ & a & b & E).
  assert (R : forall b w, valid_str (w ++ repeat space b) -> connected peel (w ++ repeat space b) w).
  { induction b0 as [|n IH]; intros w Vw; [rewrite app_nil_r; constructor|]. change (repeat space (S n)) with ([space] ++ repeat space n) in *.
    assert (Q : [space] ++ repeat space n = repeat space n ++ [space]) by (clear; induction n as [|n IH]; [reflexivity|cbn [repeat app] in *; f_equal; exact IH]).
    rewrite Q, app_assoc in *. apply valid_parts in Vw as [Vw _]. apply con_trans with (t := w ++ repeat space n); [apply con_do; [constructor|exact Vw]|apply IH, Vw]. }
  assert (L : forall a w, valid_str (repeat space a ++ w) -> connected peel (repeat space a ++ w) w).
  { induction a0 as [|n IH]; intros w Vw; [constructor|]. cbn [repeat app] in *. inversion Vw; subst. apply con_trans with (t := repeat space n ++ w); [apply con_do; [constructor|assumption]|apply IH; assumption]. }
  rewrite E in V |- * at 1. apply con_trans with (t := trim_modify s ++ repeat space b); [apply L, V|]. apply R. apply valid_parts in V as [_ V]. exact V.
Qed.
Lemma peel_keeps s t : peel s t -> trim_modify s = trim_modify t.
Proof.
  intros H. apply (trimmed_unique s); [apply trim_modify_trimmed|]. destruct H as [t|t]; destruct (trim_modify_trimmed t) as (A & B & a & b & E); (split; [exact A|split; [exact B|]]).
  - exists (S a), b. cbn [repeat app]. f_equal. exact E.
  - exists a, (S b). rewrite E at 1. rewrite <- !app_assoc. do 2 f_equal. clear. induction b as [|b IH]; [reflexivity|cbn [repeat app] in *; f_equal; exact IH].
Qed.

(** ** Exchanging characters *)
Lemma exchange_all (R : char -> char -> Prop) (f : char -> char) : (forall c, f c = c \/ R c (f c)) -> (forall c, is_scalar c = true -> is_scalar (f c) = true) ->
  forall s u, valid_str (u ++ s) -> connected (exchange R) (u ++ s) (u ++ map f s).
Proof.
  intros F S. induction s as [|c s IH]; intros u V; [constructor|]. cbn [map].
  assert (V' : valid_str (u ++ f c :: s)) by (apply valid_parts in V as [Vu V]; inversion V; subst; apply valid_parts; split; [exact Vu|constructor; auto]).
  apply con_trans with (t := u ++ f c :: s).
  - destruct (F c) as [->|H]; [constructor|]. apply con_do; [|exact V']. exact (exchange_here R c (f c) u s H).
  - specialize (IH (u ++ [f c])). rewrite <- !app_assoc in IH. cbn [app] in IH. apply IH, V'.
Qed.
Lemma exchange_keeps (R : char -> char -> Prop) (f : char -> char) : (forall c d, R c d -> f c = f d) -> forall s t, exchange R s t -> map f s = map f t.
Proof. intros H s t [c d u v E]. rewrite !map_app. cbn [map]. rewrite (H _ _ E). reflexivity. Qed.

(** ** Ligatures *)
Lemma ligate_all l : Forall (fun p => valid_str (snd p)) l -> forall s out, replaced (rules l) s out -> forall u, valid_str (u ++ s) -> connected (ligate l) (u ++ s) (u ++ out).
Proof.
  intros VL s out H. induction H as [|k w s out Nk Hk H IH|x s out M H IH]; intros u V; [constructor| |].
  - apply con_trans with (t := (u ++ w) ++ s); [|rewrite <- !app_assoc; rewrite (app_assoc u w out)].
    + apply con_do; [rewrite <- app_assoc; apply ligate_here, Hk|]. apply valid_parts in V as [Vu V]. apply valid_parts in V as [_ V]. apply valid_parts. split; [|exact V]. apply valid_parts. split; [exact Vu|].
      rewrite Forall_forall in VL. exact (VL (k, w) Hk).
    + rewrite (app_assoc u w s). apply IH. apply valid_parts in V as [Vu V]. apply valid_parts in V as [_ V]. apply valid_parts. split; [|exact V]. apply valid_parts. split; [exact Vu|].
      rewrite Forall_forall in VL. exact (VL (k, w) Hk).
  - specialize (IH (u ++ [x])). rewrite <- !app_assoc in IH. apply IH, V.
Qed.
Lemma ligate_keeps l s t : NoDup (map fst l) -> non_interfering l -> separate l -> ligate l s t -> lig_modify o_id l s = lig_modify o_id l t.
Proof.
  intros ND NI SP H. pose proof (rules_det l ND NI) as D. destruct H as [k w u v Hk].
  destruct (proj1 NI _ _ Hk) as [Nk Nw].
  assert (W : replaced (rules l) w w).
  { assert (Q : forall a, incl a w -> replaced (rules l) a a).
    { induction a as [|x a IH]; intros I; constructor; [|apply IH; intros y Y; apply I; right; exact Y].
      intros k' w' R' (r & E). destruct k' as [|y k']; [destruct (proj1 NI _ _ R') as [N _]; apply N; reflexivity|]. injection E as <- _.
      apply (proj2 (proj2 NI) _ _ _ _ x Hk R' (I x (or_introl eq_refl))). left. reflexivity. }
    apply Q. intros x; auto. }
  assert (K : replaced (rules l) k w) by (rewrite <- (app_nil_r k), <- (app_nil_r w); apply rep_hit; [exact Nk|exact Hk|constructor]).
  assert (P : forall m r, replaced (rules l) m r -> (forall i k' w', In (k', w') l -> occurs_at k' (u ++ m ++ v) i ->
      ~ i < length u < i + length k' /\ ~ i < length (u ++ m) < i + length k') ->
    forall ou ov, replaced (rules l) u ou -> replaced (rules l) v ov -> lig_modify o_id l (u ++ m ++ v) = ou ++ r ++ ov).
  { intros m r Hm C ou ov Hu Hv. pose proof (lig_replaced o_id l (u ++ m ++ v) ND NI) as Z.
    destruct (replaced_cut _ _ _ Z (u ++ m) v (app_assoc _ _ _)) as (oa & ob & E & Ha & Hb).
    { intros (a & b & (k' & w' & I & O & ->) & L). destruct (C a k' w' I O) as [_ Q]. exact (Q L). }
    destruct (replaced_cut _ _ _ Ha u m eq_refl) as (oa1 & oa2 & E' & Ha1 & Ha2).
    { intros (a & b & (k' & w' & I & O & ->) & L). assert (O' : occurs_at k' (u ++ m ++ v) a) by (destruct O as (x & y & Eq & <-); exists x, (y ++ v); rewrite app_assoc, Eq, <- !app_assoc; auto).
      destruct (C a k' w' I O') as [Q _]. exact (Q L). }
    rewrite E, E', <- app_assoc. rewrite (replaced_det _ D _ _ _ Ha1 Hu), (replaced_det _ D _ _ _ Ha2 Hm), (replaced_det _ D _ _ _ Hb Hv). reflexivity. }
  pose proof (lig_replaced o_id l u ND NI) as Hu. pose proof (lig_replaced o_id l v ND NI) as Hv.
  rewrite (P k w K) with (ou := lig_modify o_id l u) (ov := lig_modify o_id l v); [|clear P|exact Hu|exact Hv].
  - symmetry. apply (P w w W); [|exact Hu|exact Hv]. intros i k' w' I (a & b & E & <-).
    (* no key has a character in common with a value *)
    assert (Q : forall x, In x w -> ~ In x k') by (intros x Hx; exact (proj2 (proj2 NI) _ _ _ _ x Hk I Hx)).
    assert (Z : forall j x, nth_error (u ++ w ++ v) j = Some x -> length a <= j < length a + length k' -> length u <= j < length u + length w -> False).
    { intros j x Ej La Lu. assert (In x w) as X by (rewrite nth_error_app2 in Ej by lia; rewrite nth_error_app1 in Ej by lia; exact (nth_error_In _ _ Ej)).
      apply (Q x X). rewrite E in Ej. rewrite nth_error_app2 in Ej by lia. rewrite nth_error_app1 in Ej by lia. exact (nth_error_In _ _ Ej). }
    assert (NT : forall j, j < length (u ++ w ++ v) -> exists x, nth_error (u ++ w ++ v) j = Some x) by (intros j L; destruct (nth_error (u ++ w ++ v) j) as [x|] eqn:Q'; [eauto|apply nth_error_None in Q'; lia]).
    destruct w as [|w0 w1]; [contradiction|]. rewrite !app_length in *. cbn [length] in *.
    split; intros L.
    + destruct (NT (length u)) as (x & Ex); [lia|]. apply (Z _ _ Ex); lia.
    + destruct (NT (length u + length w1)) as (x & Ex); [lia|]. apply (Z _ _ Ex); lia.
  - intros i k' w' I O. assert (Ok' : occurs_at k (u ++ k ++ v) (length u)) by (exists u, v; auto).
    destruct (SP _ _ _ _ _ _ _ I Hk O Ok') as [[-> ->]|[L|L]]; rewrite app_length; lia.
Qed.
