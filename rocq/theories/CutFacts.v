(** Lemmas for C109: what a modifier that has read [a] does with [b], against what it does with [b] alone. *)
From Verif Require Import Base Utf8 StrOps Converter Eliminator Reducer Dotted TrimMod Ligature Neologdn ModifierKind ChanomaModel CharSpec Spec BaseFacts ConverterFacts SimpleFacts SimpleProps LigFacts
  NeoFacts NeoProps PropsOrigin EditSpec EditFacts EditLig CharsetFacts SameSpec SameFacts SameNeo CutSpec.
Opaque neo_text.

Lemma snoc_case {A} (u : list A) : u = [] \/ exists v x, u = v ++ [x].
Proof. induction u as [|x v _] using rev_ind; [left; reflexivity|right; exists v, x; reflexivity]. Qed.
Lemma repeat_snoc {A} (c : A) n : repeat c (S n) = repeat c n ++ [c].
Proof. induction n as [|n IH]; [reflexivity|]. cbn [repeat app] in *. rewrite <- IH. reflexivity. Qed.
Lemma snoc_spaces (a : str) x n u c : a ++ [x] ++ repeat SPACE n = u ++ [c] -> (n = 0 /\ a = u /\ x = c) \/ exists n', n = S n' /\ c = SPACE /\ u = a ++ [x] ++ repeat SPACE n'.
Proof.
  destruct n as [|n]; intros E.
  - cbn [repeat app] in E. apply app_inj_tail in E. left. tauto.
  - rewrite repeat_snoc, !app_assoc in E. apply app_inj_tail in E as [E1 E2]. right. exists n. rewrite <- E1, <- app_assoc. auto.
Qed.

(** ** Letters and digits around a cut *)
Definition lead (n : nat) (a : str) : Prop := exists a' x, a = a' ++ [x] ++ repeat SPACE n /\ alnum x.
Definition tail_ (n : nat) (b : str) : Prop := exists y b', b = repeat SPACE n ++ [y] ++ b' /\ alnum y.
Lemma word_gap_iff a b : word_gap a b <-> exists n n', lead n a /\ tail_ n' b /\ n + n' > 0.
Proof.
  split.
  - intros [x y a' n n' b' X Y G]. exists n, n'. split; [exists a', x; auto|]. split; [exists y, b'; auto|exact G].
  - intros (n & n' & (a' & x & -> & X) & (y & b' & -> & Y) & G). constructor; assumption.
Qed.
Lemma space_not_alnum : ~ alnum SPACE.
Proof. intros A. apply is_alnum_spec in A. discriminate A. Qed.
Lemma lead_nil n : ~ lead n [].
Proof. intros (a & x & E & _). destruct a; discriminate E. Qed.
Lemma lead_snoc n u c : lead n (u ++ [c]) <-> (n = 0 /\ alnum c) \/ exists n', n = S n' /\ c = SPACE /\ lead n' u.
Proof.
  split.
  - intros (a & x & E & X). symmetry in E. apply snoc_spaces in E as [(-> & -> & ->)|(n' & -> & -> & ->)]; [auto|]. right. exists n'. repeat split. exists a, x. auto.
  - intros [[-> X]|(n' & -> & -> & a & x & -> & X)]; [exists u, c; auto|]. exists a, x. split; [|exact X]. rewrite repeat_snoc, <- !app_assoc. reflexivity.
Qed.
Lemma tail_nil n : ~ tail_ n [].
Proof. intros (y & b & E & _). destruct n; discriminate E. Qed.
Lemma tail_cons n c b : tail_ n (c :: b) <-> (n = 0 /\ alnum c) \/ exists n', n = S n' /\ c = SPACE /\ tail_ n' b.
Proof.
  split.
  - intros (y & b' & E & Y). destruct n as [|n]; injection E as -> E; [auto|]. right. exists n. repeat split. exists y, b'. auto.
  - intros [[-> Y]|(n' & -> & -> & y & b' & -> & Y)]; [exists c, b; auto|]. exists y, b'. auto.
Qed.
(** With [sp] a space is held back; [p] is the last character. *)
Definition open_word (p : char) (sp : bool) (b : str) : Prop := exists n', tail_ n' b /\ (sp = true \/ (alnum p /\ n' > 0)).
Lemma open_nil p sp : ~ open_word p sp [].
Proof. intros (n & T & _). exact (tail_nil n T). Qed.
Lemma open_space p sp b : open_word p sp (SPACE :: b) <-> open_word SPACE (if is_ascii_alphanumeric p then true else sp) b.
Proof.
  split.
  - intros (n & T & D). apply tail_cons in T as [[_ A]|(n' & -> & _ & T)]; [destruct (space_not_alnum A)|]. exists n'. split; [exact T|]. left. destruct D as [->|[A _]]; [destruct (is_ascii_alphanumeric p); reflexivity|]. apply is_alnum_spec in A. rewrite A. reflexivity.
  - intros (n & T & [D|[A _]]); [|destruct (space_not_alnum A)]. exists (S n). split; [apply tail_cons; right; exists n; auto|]. destruct (is_ascii_alphanumeric p) eqn:A; [right; split; [apply is_alnum_spec, A|lia]|left; exact D].
Qed.
Lemma open_cons p sp c b : c <> SPACE -> (open_word p sp (c :: b) <-> sp = true /\ alnum c).
Proof.
  intros N. split.
  - intros (n & T & D). apply tail_cons in T as [[-> A]|(n' & _ & E & _)]; [|contradiction]. destruct D as [D|[_ D]]; [auto|lia].
  - intros [D A]. exists 0. split; [apply tail_cons; auto|auto].
Qed.
Lemma gap_open sp c : gap sp c = [] <-> ~ (sp = true /\ alnum c).
Proof.
  unfold gap. destruct sp; [|split; [intros _ [D _]; discriminate D|reflexivity]]. destruct (is_ascii_alphanumeric c) eqn:A.
  - apply is_alnum_spec in A. split; [discriminate|]. intros N. destruct N. auto.
  - split; [|reflexivity]. intros _ [_ Q]. apply is_alnum_spec in Q. congruence.
Qed.
Lemma longer (x y z : str) : x ++ y ++ z = x ++ z -> y = [].
Proof. intros E. apply app_inv_head in E. apply (f_equal (@length _)) in E. rewrite app_length in E. destruct y; [reflexivity|cbn [length] in E; lia]. Qed.

(** ** Dotted spaces *)
Lemma dot_resume b : forall p sp, dot_rec p sp b = dot_rec SPACE false b <-> ~ open_word p sp b.
Proof.
  induction b as [|c b IH]; intros p sp; [split; [intros _; apply open_nil|reflexivity]|]. cbn [dot_rec]. destruct (N.eqb_spec c SPACE) as [->|N].
  - rewrite open_space. apply (IH SPACE (if is_ascii_alphanumeric p then true else sp)).
  - rewrite (open_cons _ _ _ _ N), <- gap_open. change (gap sp c ++ c :: dot_rec c false b = c :: dot_rec c false b <-> gap sp c = []). split.
    + intros E. apply (longer [] _ (c :: dot_rec c false b)). exact E.
    + intros ->. reflexivity.
Qed.
Lemma dot_state a : let q := dot_after SPACE false a in (alnum (fst q) <-> lead 0 a) /\ (snd q = true <-> exists n, lead (S n) a).
Proof.
  induction a as [|c a IH] using rev_ind.
  - cbn. split; split; [intros A; destruct (space_not_alnum A)|intros L; destruct (lead_nil _ L)|discriminate|intros (n & L); destruct (lead_nil _ L)].
  - cbv zeta in *. rewrite dot_after_snoc. cbv zeta. destruct (dot_after SPACE false a) as [p sp]. cbn [fst snd] in IH. destruct IH as [IH1 IH2].
    destruct (N.eqb_spec c SPACE) as [->|N]; cbn [fst snd].
    + split; split.
      * intros A. destruct (space_not_alnum A).
      * intros L. apply lead_snoc in L as [[_ A]|(n & E & _)]; [destruct (space_not_alnum A)|discriminate E].
      * destruct (is_ascii_alphanumeric p) eqn:A; intros E.
        -- apply is_alnum_spec, IH1 in A. exists 0. apply lead_snoc. right. exists 0. auto.
        -- apply IH2 in E as (n & E). exists (S n). apply lead_snoc. right. exists (S n). auto.
      * intros (n & L). apply lead_snoc in L as [[E _]|(n' & E & _ & L)]; [discriminate E|]. injection E as <-. destruct n as [|n].
        -- apply IH1, is_alnum_spec in L. rewrite L. reflexivity.
        -- rewrite (proj2 IH2) by (exists n; exact L). destruct (is_ascii_alphanumeric p); reflexivity.
    + split; split; [intros A; apply lead_snoc; auto| |discriminate|].
      * intros L. apply lead_snoc in L as [[_ A]|(n & E & _)]; [exact A|discriminate E].
      * intros (n & L). apply lead_snoc in L as [[E _]|(n' & _ & E & _)]; [discriminate E|contradiction].
Qed.
Lemma open_gap p sp a b : (alnum p <-> lead 0 a) -> (sp = true <-> exists n, lead (S n) a) -> (open_word p sp b <-> word_gap a b).
Proof.
  intros P S. rewrite word_gap_iff. split.
  - intros (n' & T & [D|[D G]]).
    + apply S in D as (n & L). exists (Datatypes.S n), n'. repeat split; auto; lia.
    + apply P in D. exists 0, n'. repeat split; auto.
  - intros (n & n' & L & T & G). exists n'. split; [exact T|]. destruct n as [|n]; [right|left]; [split; [apply P, L|lia]|apply S; exists n; exact L].
Qed.
Lemma dot_cut a b : dot_rec SPACE false (a ++ b) = dot_rec SPACE false a ++ dot_rec SPACE false b <-> ~ word_gap a b.
Proof.
  destruct (dot_app a SPACE false) as (out & E). destruct (dot_state a) as [P S]. rewrite <- (open_gap _ _ _ b P S), <- dot_resume.
  assert (Z : dot_rec SPACE false a = out) by (specialize (E []); cbn [dot_rec] in E; rewrite !app_nil_r in E; exact E). rewrite E, Z. split; [apply app_inv_head|intros ->; reflexivity].
Qed.

(** ** Runs of one character *)
Lemma red_cut k a b : red_rec k false (a ++ b) = red_rec k false a ++ red_rec k false b <-> ~ (ends_in (eq k) a /\ begins_in (eq k) b).
Proof.
  rewrite red_app. set (e := match rev a with [] => false | c :: _ => N.eqb k c end).
  assert (E : e = true <-> ends_in (eq k) a).
  { unfold e, ends_in. destruct (rev a) as [|c r]; [split; [discriminate|intros (c & H & _); discriminate H]|]. rewrite N.eqb_eq. split; [intros ->; exists c; auto|intros (x & H & <-)]. injection H as ->. reflexivity. }
  rewrite <- E. destruct b as [|c b]; [split; [intros _ [_ (c & H & _)]; discriminate H|reflexivity]|]. rewrite begins_cons. cbn [red_rec]. destruct (N.eqb_spec k c) as [<-|N].
  - destruct e; [|split; [intros _ [D _]; discriminate D|reflexivity]]. split; [|intros H; destruct H; auto]. intros H. apply app_inv_head, (f_equal (@length _)) in H. cbn [length] in H. lia.
  - split; [intros _ [_ D]; contradiction|reflexivity].
Qed.

(** ** Trimming *)
Lemma spaces_or s : (exists n, s = repeat SPACE n) \/ Exists not_space s.
Proof.
  induction s as [|c s IH]; [left; exists 0; reflexivity|]. destruct (N.eq_dec c SPACE) as [->|N]; [|right; constructor; exact N]. destruct IH as [(n & ->)|E]; [left; exists (S n); reflexivity|right; constructor 2; exact E].
Qed.
Lemma spaces_not n : ~ Exists not_space (repeat SPACE n).
Proof. intros H. apply Exists_exists in H as (x & I & N). apply repeat_spec in I. exact (N I). Qed.
Lemma trim_is s t : trimmed s t -> trim_modify s = t.
Proof. intros T. exact (trimmed_unique _ _ _ (trim_modify_trimmed s) T). Qed.
Lemma trim_spaces n : trim_modify (repeat SPACE n) = [].
Proof. apply trim_is. split; [discriminate|]. split; [discriminate|]. exists n, 0. rewrite app_nil_r. reflexivity. Qed.
Lemma spaces_ends n : ends_in (eq space) (repeat SPACE (S n)).
Proof. rewrite repeat_snoc. apply ends_snoc'. reflexivity. Qed.
Lemma ends_app P u v : v <> [] -> (ends_in P (u ++ v) <-> ends_in P v).
Proof. intros N. destruct (snoc_case v) as [->|(w & x & ->)]; [contradiction|]. rewrite app_assoc, !ends_snoc'. reflexivity. Qed.
Lemma trim_cut a b : trim_modify (a ++ b) = trim_modify a ++ trim_modify b <-> ~ (Exists not_space a /\ Exists not_space b /\ (ends_in (eq space) a \/ begins_in (eq space) b)).
Proof.
  destruct (spaces_or a) as [(n & ->)|A].
  { rewrite trim_spaces. cbn [app]. split; [intros _ [N _]; exact (spaces_not _ N)|]. intros _. apply trim_is. destruct (trim_modify_trimmed b) as (H1 & H2 & i & j & E). split; [exact H1|]. split; [exact H2|].
    exists (n + i), j. rewrite repeat_app, <- app_assoc. f_equal. exact E. }
  destruct (spaces_or b) as [(n & ->)|B].
  { rewrite trim_spaces, app_nil_r. split; [intros _ (_ & N & _); exact (spaces_not _ N)|]. intros _. apply trim_is. destruct (trim_modify_trimmed a) as (H1 & H2 & i & j & E). split; [exact H1|]. split; [exact H2|].
    exists i, (j + n). rewrite repeat_app, E at 1. rewrite <- !app_assoc. reflexivity. }
  destruct (trim_modify_trimmed a) as (A1 & A2 & i & j & Ea). destruct (trim_modify_trimmed b) as (B1 & B2 & k & l & Eb). set (u := trim_modify a) in *. set (v := trim_modify b) in *.
  assert (Nu : u <> []). { intros E. rewrite E in Ea. cbn [app] in Ea. rewrite <- repeat_app in Ea. rewrite Ea in A. exact (spaces_not _ A). }
  assert (Nv : v <> []). { intros E. rewrite E in Eb. cbn [app] in Eb. rewrite <- repeat_app in Eb. rewrite Eb in B. exact (spaces_not _ B). }
  assert (T : trim_modify (a ++ b) = u ++ repeat space (j + k) ++ v).
  { apply trim_is. split; [destruct u; [contradiction|exact A1]|]. split.
    - rewrite !rev_app_distr. destruct (snoc_case v) as [E|(w & x & E)]; [contradiction|]. rewrite E, rev_app_distr in B2 |- *. exact B2.
    - exists i, l. rewrite Ea, Eb at 1. rewrite repeat_app, <- !app_assoc. reflexivity. }
  assert (J : ends_in (eq space) a <-> j > 0).
  { rewrite Ea. destruct j as [|j].
    - cbn [repeat]. rewrite app_nil_r, (ends_app _ _ _ Nu). split; [|lia]. intros (c & H & <-). contradiction.
    - rewrite app_assoc, ends_app by discriminate. split; [lia|]. intros _. apply spaces_ends. }
  assert (K : begins_in (eq space) b <-> k > 0).
  { rewrite Eb. destruct k as [|k].
    - cbn [repeat app]. split; [|lia]. intros (c & H & <-). destruct v; [contradiction|exact (False_ind _ (B1 H))].
    - cbn [repeat app]. rewrite begins_cons. split; [lia|reflexivity]. }
  rewrite T, J, K. split.
  - intros E (_ & _ & G). apply longer in E. apply (f_equal (@length _)) in E. rewrite repeat_length in E. cbn [length] in E. lia.
  - intros N. assert (j + k = 0) as -> by (destruct (j + k) eqn:E; [reflexivity|destruct N; split; [exact A|split; [exact B|lia]]]). reflexivity.
Qed.

(** ** Ligatures *)
Lemma prefix_cases (k s b : str) r : s ++ b = k ++ r -> (exists r', s = k ++ r') \/ (exists k2, k = s ++ k2 /\ k2 <> [] /\ b = k2 ++ r).
Proof.
  revert s. induction k as [|x k IH]; intros s E; [left; exists s; reflexivity|]. destruct s as [|y s].
  - right. exists (x :: k). split; [reflexivity|]. split; [discriminate|exact E].
  - injection E as -> E. destruct (IH s E) as [(r' & ->)|(k2 & -> & N & Q)]; [left; exists r'; reflexivity|right; exists k2; auto].
Qed.
Lemma lig_joined l a x : replaced (rules l) a x -> forall b y, replaced (rules l) b y -> ~ key_across l a b -> replaced (rules l) (a ++ b) (x ++ y).
Proof.
  intros H. induction H as [|k v s out Nk R H IH|c s out M H IH]; intros b y B X; [exact B| |].
  - rewrite <- !app_assoc. constructor; [exact Nk|exact R|]. apply IH; [exact B|]. intros C. apply X. inversion C as [k' v' k1 k2 a' b' I E N1 N2]; subst. rewrite app_assoc. econstructor; eauto.
  - cbn [app]. constructor.
    + intros k v R (r & E). destruct (prefix_cases k (c :: s) b r E) as [(r' & Q)|(k2 & Q & N & Qb)]; [apply (M k v R); exists r'; exact Q|].
      apply X. rewrite Qb. change (c :: s) with ([] ++ (c :: s)). econstructor; [exact R|exact Q|discriminate|exact N].
    + apply IH; [exact B|]. intros C. apply X. inversion C as [k' v' k1 k2 a' b' I E N1 N2]; subst. change (c :: a' ++ k1) with ((c :: a') ++ k1). econstructor; eauto.
Qed.
(** A part of an occurrence is left alone. *)
Lemma part_alone l : (forall k v, In (k, v) l -> k <> []) -> separate l -> forall k v p w q, In (k, v) l -> k = p ++ w ++ q -> p ++ q <> [] -> replaced (rules l) w w.
Proof.
  intros NE S k v p w q I. revert p. induction w as [|c w IH]; intros p E N; constructor.
  - intros k' v' R (r & Q). assert (Nk : k' <> []) by (eapply NE; exact R).
    destruct (S k k v k' v' 0 (length p) I R) as [[Ek Ep]|[H|H]].
    + exists [], []. rewrite app_nil_r. auto.
    + exists p, (r ++ q). split; [|reflexivity]. rewrite E, Q, <- !app_assoc. reflexivity.
    + destruct p; [|discriminate Ep]. cbn [app] in E, N. destruct q; [contradiction|]. subst k'. rewrite E in Q. apply (f_equal (@length _)) in Q. cbn [app length] in Q. rewrite !app_length in Q. cbn [length] in Q. lia.
    + subst k. rewrite !app_length in H. cbn [length] in H. lia.
    + destruct k'; [contradiction|cbn [length] in H; lia].
  - apply (IH (p ++ [c])); [rewrite <- app_assoc; exact E|]. destruct p; discriminate.
Qed.
Lemma across_overlap l : (forall k v, In (k, v) l -> k <> []) -> separate l -> forall a' k v b', In (k, v) l -> ~ key_across l a' (k ++ b') /\ (forall k1 k2, k = k1 ++ k2 -> k1 <> [] -> k2 <> [] -> ~ key_across l a' k1 /\ ~ key_across l k2 b') /\ ~ key_across l (a' ++ k) b'.
Proof.
  intros NE S a' k v b' I.
  (* an occurrence of a key that shares a character with this one and begins before it or ends after it *)
  assert (G : forall s i j k' v', In (k', v') l -> occurs_at k s i -> occurs_at k' s j -> j < i + length k -> i < j + length k' -> j < i \/ i + length k < j + length k' -> False).
  { intros s i j k' v' I' O O' L1 L2 D. destruct (S s k v k' v' i j I I' O O') as [[<- <-]|H]; lia. }
  assert (P : forall b, ~ key_across l a' (k ++ b)).
  { intros b X. remember (k ++ b) as z eqn:Z. destruct X as [k' v' k1 k2 a z I' E N1 N2]. destruct k1 as [|c1 k1]; [contradiction|]. destruct k2 as [|c2 k2]; [contradiction|].
    assert (Nk : k <> []) by (eapply NE; exact I).
    apply (G ((a ++ c1 :: k1) ++ k ++ b) (length (a ++ c1 :: k1)) (length a) k' v' I').
    - exists (a ++ c1 :: k1), b. auto.
    - exists a, z. split; [|reflexivity]. rewrite <- Z, E, <- !app_assoc. reflexivity.
    - rewrite app_length. cbn [length]. lia.
    - rewrite E, !app_length. cbn [length]. lia.
    - left. rewrite app_length. cbn [length]. lia. }
  assert (Q : forall a, ~ key_across l (a ++ k) b').
  { intros a0 X. remember (a0 ++ k) as z eqn:Z. destruct X as [k' v' k1 k2 a b I' E N1 N2]. destruct k1 as [|c1 k1]; [contradiction|]. destruct k2 as [|c2 k2]; [contradiction|].
    assert (Nk : k <> []) by (eapply NE; exact I). assert (Lk : length k > 0) by (destruct k; [contradiction|cbn [length]; lia]). pose proof (f_equal (@length _) Z) as LZ. rewrite !app_length in LZ. cbn [length] in LZ.
    apply (G ((a0 ++ k) ++ (c2 :: k2) ++ b) (length a0) (length a) k' v' I').
    - exists a0, ((c2 :: k2) ++ b). rewrite <- app_assoc. auto.
    - exists a, b. split; [|reflexivity]. rewrite <- Z, E, <- !app_assoc. reflexivity.
    - cbn [length]. lia.
    - rewrite E, app_length. cbn [length]. lia.
    - right. rewrite E, app_length. cbn [length]. lia. }
  split; [apply P|]. split; [|apply Q]. intros k1 k2 E N1 N2. split.
  - intros X. apply (P []). rewrite app_nil_r, E. destruct X as [k' v' p q a b I' E' M1 M2]. subst k. rewrite <- app_assoc. econstructor; eauto.
  - intros X. apply (Q []). cbn [app]. rewrite E. destruct X as [k' v' p q a b I' E' M1 M2]. subst k. rewrite app_assoc. econstructor; eauto.
Qed.
Lemma lig_cut l : NoDup (map fst l) -> non_interfering l -> separate l ->
  forall a b, lig_modify o_id l (a ++ b) = lig_modify o_id l a ++ lig_modify o_id l b <-> ~ key_across l a b.
Proof.
  intros ND NI S a b. pose proof (rules_det l ND NI) as D. assert (F : forall s t, replaced (rules l) s t -> lig_modify o_id l s = t) by (intros s t R; exact (replaced_det (rules l) D s _ _ (lig_replaced o_id l s ND NI) R)).
  split.
  - intros E X. destruct X as [k v k1 k2 a b I -> N1 N2].
    assert (NE : forall k v, In (k, v) l -> k <> []) by (intros k0 v0 H; apply (proj1 NI _ _ H)).
    pose proof (lig_replaced o_id l a ND NI) as Ra. pose proof (lig_replaced o_id l b ND NI) as Rb. set (x := lig_modify o_id l a) in *. set (y := lig_modify o_id l b) in *.
    destruct (across_overlap l NE S a (k1 ++ k2) v b I) as (C1 & C2 & C3). destruct (C2 k1 k2 eq_refl N1 N2) as [C4 C5].
    assert (W1 : replaced (rules l) k1 k1) by (apply (part_alone l NE S (k1 ++ k2) v [] k1 k2 I eq_refl); destruct k2; [contradiction|discriminate]).
    assert (W2 : replaced (rules l) k2 k2) by (apply (part_alone l NE S (k1 ++ k2) v k1 k2 [] I); [rewrite app_nil_r; reflexivity|destruct k1; [contradiction|discriminate]]).
    assert (M : lig_modify o_id l ((a ++ k1) ++ k2 ++ b) = x ++ v ++ y).
    { apply F. replace ((a ++ k1) ++ k2 ++ b) with (a ++ (k1 ++ k2) ++ b) by (rewrite <- !app_assoc; reflexivity). apply lig_joined; [exact Ra| |exact C1].
      apply rep_hit; [apply (proj1 NI _ _ I)|exact I|exact Rb]. }
    rewrite M, (F _ _ (lig_joined l _ _ Ra _ _ W1 C4)), (F _ _ (lig_joined l _ _ W2 _ _ Rb C5)), <- !app_assoc in E. apply app_inv_head in E. rewrite app_assoc in E. apply app_inv_tail in E.
    destruct v as [|c v]; [destruct (proj1 NI _ _ I) as [_ Nv]; contradiction|]. apply (proj2 (proj2 NI) _ _ _ _ c I I (or_introl eq_refl)). rewrite <- E. left. reflexivity.
  - intros X. apply F, lig_joined; [apply lig_replaced; assumption|apply lig_replaced; assumption|exact X].
Qed.

(** ** neologdn *)
Definition blank (c : char) : Prop := c = space \/ In c tilde_variants.
Lemma blank_iff c : blank c <-> c = SPACE \/ not_tilde c = false.
Proof. unfold blank. rewrite tilde_in. reflexivity. Qed.
(** [x] is the last character but for blanks; [m] is the first but for blanks. *)
Definition before_blanks (x : char) (a : str) : Prop := exists a' g, a = a' ++ [x] ++ g /\ Forall blank g.
Definition after_blanks (m : char) (b : str) : Prop := exists g b', b = g ++ [m] ++ b' /\ Forall blank g.
Lemma mark_gap_iff a b : mark_gap a b <-> exists x m t, composes x m t /\ before_blanks x a /\ after_blanks m b.
Proof.
  split.
  - intros (x & m & t & C & M). exists x, m, t. split; [exact C|]. destruct M as [a g g' b G G']. split; [exists a, g; auto|exists g', b; auto].
  - intros (x & m & t & C & (a' & g & -> & G) & (g' & b' & -> & G')). exists x, m, t. split; [exact C|]. constructor; assumption.
Qed.
Lemma before_nil x : ~ before_blanks x [].
Proof. intros (a & g & E & _). destruct a; discriminate E. Qed.
Lemma before_snoc x u c : before_blanks x (u ++ [c]) <-> x = c \/ (blank c /\ before_blanks x u).
Proof.
  split.
  - intros (a & g & E & G). destruct (snoc_case g) as [->|(w & d & ->)].
    + rewrite app_nil_r in E. apply app_inj_tail in E as [_ E]. auto.
    + rewrite !app_assoc in E. apply app_inj_tail in E as [-> ->]. apply Forall_app in G as [G1 G2]. inversion G2; subst. right. split; [assumption|]. exists a, w. rewrite <- app_assoc. auto.
  - intros [->|[B (a & g & -> & G)]]; [exists u, []; auto|]. exists a, (g ++ [c]). rewrite <- !app_assoc. split; [reflexivity|]. apply Forall_app. auto.
Qed.
Lemma after_nil m : ~ after_blanks m [].
Proof. intros (g & b & E & _). destruct g; discriminate E. Qed.
Lemma after_cons m c b : after_blanks m (c :: b) <-> m = c \/ (blank c /\ after_blanks m b).
Proof.
  split.
  - intros (g & b' & E & G). destruct g as [|d g]; injection E as -> E; [auto|]. inversion G; subst. right. split; [assumption|]. exists g, b'. auto.
  - intros [->|[B (g & b' & -> & G)]]; [exists [], b; auto|]. exists (c :: g), b'. split; [reflexivity|constructor; assumption].
Qed.
Lemma long_plain : is_ascii_alphanumeric prolonged_mark = false /\ not_tilde prolonged_mark = true /\ prolonged_mark <> SPACE.
Proof. split; [reflexivity|]. split; [reflexivity|discriminate]. Qed.
Lemma space_kept : not_tilde SPACE = true.
Proof. reflexivity. Qed.

Lemma is_mark_kept m : is_mark m = true -> not_tilde m = true.
Proof. unfold is_mark. intros H. apply orb_true_iff in H as [H|H]; apply N.eqb_eq in H; rewrite H; reflexivity. Qed.

Section Cut.
  Context (base : char -> bool) (mate : char -> char -> option char).
  Hypothesis base_iff : forall a, base a = true <-> exists m t, composes a m t.
  Hypothesis mate_iff : forall a m t, mate a m = Some t <-> composes a m t.
  Hypothesis base_kept : forall a, base a = true -> not_tilde a = true.
  Notation run := (neo_run prolonged_mark not_tilde base mate).
  Notation step := (neo_step prolonged_mark not_tilde base mate).
  Notation ok := (neo_ok prolonged_mark).
  Definition open_mark (h : option char) (b : str) : Prop := exists x m t, h = Some x /\ composes x m t /\ after_blanks m b.
  Definition open_state (q : state) (b : str) : Prop := let '(p, sp, h) := q in
    (p = prolonged_mark /\ begins_in (eq prolonged_mark) b) \/ open_word p sp b \/ open_mark h b.
  Lemma mark_plain x m t : composes x m t -> m <> SPACE /\ not_tilde m = true /\ m <> prolonged_mark.
  Proof.
    intros C. pose proof (composes_facts _ _ _ C) as F. split; [intros E; apply (ef_m_space _ _ _ F); exact E|]. split; [apply is_mark_kept, (ef_m_mark _ _ _ F)|intros E; apply (ef_m_long _ _ _ F); exact E].
  Qed.
  Lemma open_mark_blank h c b : blank c -> (open_mark h (c :: b) <-> open_mark h b).
  Proof.
    intros B. split; intros (x & m & t & E & C & A); exists x, m, t; (split; [exact E|split; [exact C|]]).
    - apply after_cons in A as [->|[_ A]]; [|exact A]. destruct (mark_plain _ _ _ C) as (N1 & N2 & _). apply blank_iff in B as [B|B]; congruence.
    - apply after_cons. auto.
  Qed.
  Lemma open_mark_here h c b : ~ blank c -> (open_mark h (c :: b) <-> exists x t, h = Some x /\ composes x c t).
  Proof.
    intros B. split.
    - intros (x & m & t & E & C & A). apply after_cons in A as [->|[X _]]; [exists x, t; auto|contradiction].
    - intros (x & t & E & C). exists x, c, t. split; [exact E|]. split; [exact C|]. apply after_cons. auto.
  Qed.
  Lemma neo_resume b : forall q, ok q -> (run q b = held (snd q) ++ run start b <-> ~ open_state q b).
  Proof.
    induction b as [|c b IH]; intros q K.
    { rewrite !run_nil. cbn [snd start held]. rewrite app_nil_r. destruct q as [[p sp] h]. split; [|reflexivity]. intros _ [[_ (x & E & _)]|[O|(x & m & t & _ & _ & A)]]; [discriminate E|exact (open_nil _ _ O)|exact (after_nil _ A)]. }
    rewrite (run_cons base mate base_iff mate_iff _ _ _ K), (run_cons base mate base_iff mate_iff _ _ _ ok_start).
    pose proof (ok_step base mate base_iff q c K) as K1. pose proof (ok_step base mate base_iff start c ok_start) as K2.
    destruct q as [[p sp] h]. unfold start in *. unfold neo_step in *. cbn [snd]. unfold open_state. rewrite begins_cons. destruct (N.eqb_spec prolonged_mark c) as [<-|NL].
    - destruct long_plain as (L1 & L2 & L3). rewrite (open_cons _ _ _ _ L3), open_mark_here by (intros B; apply blank_iff in B as [B|B]; congruence). destruct (N.eqb_spec prolonged_mark p) as [<-|NP].
      + change (N.eqb prolonged_mark SPACE) with false. cbn [fst snd held app]. destruct K as (_ & _ & K). destruct (K eq_refl) as [-> ->]. cbn [held app]. split; [|intros X; destruct X; auto].
        intros E. apply (f_equal (@length _)) in E. cbn [length] in E. lia.
      + change (N.eqb prolonged_mark SPACE) with false. cbn [fst snd held app]. rewrite <- app_assoc. split; [|reflexivity]. intros _ [[E _]|[[_ A]|(x & t & _ & C)]]; [congruence|apply is_alnum_spec in A; congruence|].
        apply (mark_plain _ _ _ C). reflexivity.
    - destruct (N.eqb_spec c SPACE) as [->|NS].
      + change (is_ascii_alphanumeric SPACE) with false in *. cbn [fst snd held app] in *. rewrite (IH _ K1). unfold open_state. rewrite open_space, open_mark_blank by (left; reflexivity). split; intros X Y; apply X; (destruct Y as [[Y Z]|Y]; [|auto]).
        * contradiction.
        * destruct long_plain as (_ & _ & L3). congruence.
      + rewrite (open_cons _ _ _ _ NS). destruct (not_tilde c) eqn:T; cbn [negb] in *.
        * assert (NB : ~ blank c) by (intros B; apply blank_iff in B as [B|B]; congruence). rewrite open_mark_here by exact NB.
          destruct (match h with Some a => mate a c | None => None end) as [t|] eqn:M; cbn [fst snd held app] in *.
          -- destruct h as [a|]; [|discriminate M]. pose proof M as C. apply mate_iff in C. destruct (mate_base base mate base_iff mate_iff _ _ _ M) as [B A]. rewrite B. cbn [fst snd held gap app].
             split; [|intros X; destruct X; right; right; exists a, t; auto]. intros E. apply (f_equal (@length _)) in E. cbn [length] in E. lia.
          -- assert (NM : ~ (exists x t, h = Some x /\ composes x c t)) by (intros (x & t & -> & C); apply mate_iff in C; congruence).
             destruct (base c) eqn:B; cbn [fst snd held app] in *.
             ++ split; [|reflexivity]. intros _ [[_ E]|[[_ A]|X]]; [contradiction| |contradiction]. apply is_alnum_spec in A. rewrite (base_alnum base base_iff _ B) in A. discriminate A.
             ++ cbn [gap app]. assert (X : ~ ((p = prolonged_mark /\ prolonged_mark = c) \/ (sp = true /\ alnum c) \/ (exists x t, h = Some x /\ composes x c t)) <-> ~ (sp = true /\ alnum c)) by tauto.
                rewrite X, <- gap_open, <- !app_assoc. cbn [app]. split; [intros E; apply longer in E; exact E|]. intros ->. reflexivity.
        * destruct (tilde_plain _ T) as [TL TS]. pose proof (tilde_alnum _ T) as TA.
          rewrite open_mark_blank by (apply blank_iff; auto). cbn [fst snd held app] in *.
          assert (Z : forall h', ok (c, false, h') -> run (c, false, h') b = run (SPACE, false, h') b).
          { intros h' Kh. apply (previous base mate base_iff mate_iff); [exact Kh|repeat split; try discriminate|intros _; destruct long_plain as (_ & _ & L3); split; [exact TL|congruence]|].
            intros _. split; [intros A; apply is_alnum_spec in A; congruence|exact space_not_alnum]. }
          rewrite (Z _ K1), (Z _ K2). assert (K3 : ok (SPACE, false, h)) by (repeat split; discriminate). pose proof (IH _ K3) as IH'. cbn [snd] in IH'. unfold start in IH'. rewrite IH'. unfold open_state.
          assert (OW : ~ open_word SPACE false b) by (intros (n & _ & [D|[D _]]); [discriminate D|exact (space_not_alnum D)]). destruct long_plain as (_ & _ & L3).
          assert (Y : ~ (sp = true /\ alnum c)) by (intros [_ A]; apply is_alnum_spec in A; congruence). split; intros X W; apply X; (destruct W as [[W W']|[W|W]]; [|contradiction|auto]); congruence.
  Qed.
  Lemma neo_state u : let '(p, sp, h) := after base mate start u in (p = prolonged_mark <-> ends_in (eq prolonged_mark) u) /\ (alnum p <-> lead 0 u) /\ (sp = true <-> exists n, lead (S n) u) /\
    (forall x, h = Some x <-> base x = true /\ before_blanks x u).
  Proof.
    induction u as [|c u IH] using rev_ind.
    - cbn. split; [split; [discriminate|intros E; destruct (ends_nil _ E)]|]. split; [split; [intros A; destruct (space_not_alnum A)|intros L; destruct (lead_nil _ L)]|]. split; [split; [discriminate|intros (n & L); destruct (lead_nil _ L)]|].
      intros x. split; [discriminate|intros [_ B]; destruct (before_nil _ B)].
    - rewrite after_snoc. pose proof (proj2 (run_app base mate base_iff mate_iff u start [] ok_start)) as K. destruct (after base mate start u) as [[p sp] h]. destruct IH as (I1 & I2 & I3 & I4).
      assert (NS : c <> SPACE -> forall n, ~ lead (S n) (u ++ [c])) by (intros N n L; apply lead_snoc in L as [[E _]|(n' & _ & E & _)]; [discriminate E|contradiction]).
      assert (N0 : lead 0 (u ++ [c]) <-> alnum c) by (rewrite lead_snoc; split; [intros [[_ A]|(n' & E & _)]; [exact A|discriminate E]|auto]).
      assert (EL : forall q, ends_in q (u ++ [c]) <-> q c) by (intros q; apply ends_snoc').
      assert (NBk : not_tilde c = true -> c <> SPACE -> ~ blank c) by (intros T N B; apply blank_iff in B as [B|B]; congruence).
      assert (BB : forall x, base x = true -> blank c -> (before_blanks x (u ++ [c]) <-> before_blanks x u)).
      { intros x Bx Bc. rewrite before_snoc. split; [|auto]. intros [->|[_ H]]; [|exact H]. apply blank_iff in Bc as [->|Bc]; [rewrite (space_base base base_iff) in Bx; discriminate Bx|rewrite (base_kept _ Bx) in Bc; discriminate Bc]. }
      assert (BN : ~ blank c -> forall x, before_blanks x (u ++ [c]) <-> x = c) by (intros B x; rewrite before_snoc; tauto).
      unfold neo_step. destruct (N.eqb_spec prolonged_mark c) as [E|NL].
      + destruct long_plain as (L1 & L2 & L3). rewrite E in L1, L2, L3. assert (NA : ~ alnum c) by (intros A; apply is_alnum_spec in A; congruence). pose proof (long_base base base_iff) as LB. rewrite E in LB.
        assert (R : forall x, None = Some x <-> base x = true /\ before_blanks x (u ++ [c])). { intros x. split; [discriminate|]. intros [Bx B]. apply (BN (NBk L2 L3)) in B. subst x. congruence. }
        assert (R' : false = true <-> exists n, lead (S n) (u ++ [c])) by (split; [discriminate|intros (n & L); destruct (NS L3 n L)]).
        destruct (N.eqb_spec prolonged_mark p) as [E'|N']; cbn [fst snd].
        * destruct K as (_ & _ & K). destruct (K E') as [-> ->]. rewrite <- E'. rewrite EL, N0. split; [rewrite E; split; auto|]. split; [rewrite E; split; auto|]. split; [exact R'|exact R].
        * rewrite EL, N0. split; [rewrite E; split; auto|]. split; [reflexivity|]. split; [exact R'|exact R].
      + destruct (N.eqb_spec c SPACE) as [E|N]; cbn [fst snd].
        * subst c. rewrite EL, N0. split; [split; [intros E; discriminate E|congruence]|]. split; [reflexivity|]. split.
          -- split.
             ++ destruct (is_ascii_alphanumeric p) eqn:A; intros E.
                ** apply is_alnum_spec, I2 in A. exists 0. apply lead_snoc. right. exists 0. auto.
                ** apply I3 in E as (n & E). exists (S n). apply lead_snoc. right. exists (S n). auto.
             ++ intros (n & L). apply lead_snoc in L as [[E _]|(n' & E & _ & L)]; [discriminate E|]. injection E as <-. destruct n as [|n].
                ** apply I2, is_alnum_spec in L. rewrite L. reflexivity.
                ** rewrite (proj2 I3) by (exists n; exact L). destruct (is_ascii_alphanumeric p); reflexivity.
          -- intros x. rewrite I4. split; intros [Bx H]; (split; [exact Bx|apply (BB x Bx); [left; reflexivity|exact H]]).
        * assert (R' : false = true <-> exists n, lead (S n) (u ++ [c])) by (split; [discriminate|intros (n & L); destruct (NS N n L)]).
          assert (R0 : c = prolonged_mark <-> ends_in (eq prolonged_mark) (u ++ [c])) by (rewrite EL; split; congruence).
          assert (R1 : alnum c <-> lead 0 (u ++ [c])) by (rewrite N0; reflexivity).
          destruct (not_tilde c) eqn:T; cbn [negb fst snd].
          -- assert (BN' := BN (NBk eq_refl N)). destruct (match h with Some a => mate a c | None => None end) as [t|] eqn:M; cbn [fst snd].
             ++ split; [exact R0|]. split; [exact R1|]. split; [exact R'|]. intros x. split; [discriminate|]. intros [Bx B]. apply BN' in B. subst x. destruct h as [a|]; [|discriminate M]. destruct (mate_base base mate base_iff mate_iff _ _ _ M). congruence.
             ++ destruct (base c) eqn:B; cbn [fst snd]; (split; [exact R0|]; split; [exact R1|]; split; [exact R'|]; intros x; rewrite BN').
                ** split; [intros E; injection E as <-; auto|intros [_ ->]; reflexivity].
                ** split; [discriminate|intros [Bx ->]; congruence].
          -- split; [exact R0|]. split; [exact R1|]. split; [exact R'|]. intros x. rewrite I4. split; intros [Bx H]; (split; [exact Bx|apply (BB x Bx); [apply blank_iff; auto|exact H]]).
  Qed.
  Lemma neo_cut a b : run start (a ++ b) = run start a ++ run start b <-> ~ ((ends_in (eq prolonged_mark) a /\ begins_in (eq prolonged_mark) b) \/ word_gap a b \/ mark_gap a b).
  Proof.
    destruct (run_app base mate base_iff mate_iff a start b ok_start) as [E K]. destruct (run_app base mate base_iff mate_iff a start [] ok_start) as [E' _]. rewrite app_nil_r, run_nil in E'. rewrite E, E', <- app_assoc.
    pose proof (neo_resume b _ K) as R. pose proof (neo_state a) as I. destruct (after base mate start a) as [[p sp] h]. destruct I as (I1 & I2 & I3 & I4). cbn [snd] in *. unfold open_state in R. rewrite (open_gap _ _ _ b I2 I3), I1 in R.
    assert (M : open_mark h b <-> mark_gap a b).
    { rewrite mark_gap_iff. split; intros (x & m & t & H).
      - destruct H as (H & C & A). apply I4 in H as [_ H]. exists x, m, t. auto.
      - destruct H as (C & B & A). exists x, m, t. split; [|auto]. apply I4. split; [apply base_iff; exists m, t; exact C|exact B]. }
    rewrite M in R. rewrite <- R. split; [apply app_inv_head|intros ->; reflexivity].
  Qed.
End Cut.
