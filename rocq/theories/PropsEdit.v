(** C97: how far a change of the text reaches. *)
From Coq Require Import String.
From Verif Require Import Base StrOps Converter Eliminator Reducer Dotted Ligature TrimMod Neologdn ModifierKind ChanomaModel
  Spec BaseFacts ConverterFacts SimpleFacts NeoFacts NeoProps EditSpec EditFacts EditLig SimpleProps ConverterProps CharsetFacts PropsConverter PropsPipeline PropsLig PropsNeo PropsNeoMore.
Local Open Scope string_scope.
Local Open Scope list_scope.

(** By how many characters the changed stretch can grow in a modifier. *)
Inductive reach : modifier -> nat -> Prop :=
| re_conv cc : reach (MConv cc) 0
| re_elim el : reach (MElim el) 0
| re_red c : reach (MRed c) 1
| re_dot : reach MDot 2
| re_neo n : reach (MNeo n) 2.
(** In a pipeline the numbers are added up; it has neither trimming nor ligatures. *)
Inductive reaches : chanoma -> nat -> Prop :=
| rs_nil : reaches [] 0
| rs_cons m k c n : reach m k -> reaches c n -> reaches (m :: c) (k + n).

Lemma elim_filter el s : elim_modify el s = filter (fun c => negb (mem N.eqb c el)) s.
Proof. induction s as [|c s IH]; cbn [elim_modify filter]; [reflexivity|]. destruct (mem N.eqb c el); cbn [negb]; rewrite IH; reflexivity. Qed.
Lemma modify_confined m k : constructible m -> reach m k -> exists f, confined k f /\ forall o s, modify o m s = Ok (f s).
Proof.
  intros C R. destruct R as [cc|el|c| |n]; cbn [modify].
  - exists (map (conv1 cc)). split; [apply confined_map|]. intros o s. apply conv_modify_eq.
  - exists (elim_modify el). split; [|reflexivity]. apply (confined_ext _ (filter (fun c => negb (mem N.eqb c el)))); [intros s; symmetry; apply elim_filter|apply confined_filter].
  - exists (red_modify c). split; [apply confined_red|reflexivity].
  - exists dot_modify. split; [apply confined_dot|reflexivity].
  - destruct (C n eq_refl) as (o' & Hn). apply neo_new_inv in Hn. subst n. exists neo_text. split; [apply confined_neo|]. intros o s. apply neo_modify_eq.
Qed.
Lemma fold_confined c k : Forall constructible c -> reaches c k -> exists f, confined k f /\ forall o i s, normalize_fold o i c s = Ok (f s).
Proof.
  intros H R. induction R as [|m k c n Rm R IH]; [exists (fun s => s); split; [apply confined_id|reflexivity]|].
  inversion H as [|? ? Hm Hc]; subst. destruct (modify_confined m k Hm Rm) as (f & F & E). destruct (IH Hc) as (g & G & E'). exists (fun s => g (f s)). split; [apply confined_comp; assumption|].
  intros o i s. cbn [normalize_fold]. rewrite E. cbn [bind]. apply E'.
Qed.

(** Two texts that agree outside one stretch have results that agree outside one stretch that is hardly longer. *)
Theorem C97_stays_local : forall c k, Forall constructible c -> reaches c k -> forall m n x y a b, differ_in m n x y ->
  result c x a -> result c y b -> differ_in (m + k) (n + k) a b.
Proof.
  intros c k H R m n x y a b D (o & A) (o' & B). destruct (fold_confined c k H R) as (f & F & E). unfold normalize in A, B. cbn [negb] in A, B. rewrite E in A, B.
  apply Ok_inj in A. apply Ok_inj in B. subst a b. apply F, D.
Qed.
Print Assumptions C97_stays_local.
Corollary confined_preset o ch : chanoma_preset o = Ok ch -> reaches ch 0 /\ Forall constructible ch.
Proof. rewrite chanoma_preset_eq. intros E. apply Ok_inj in E. subst ch. split; [apply (rs_cons _ 0 [] 0); constructor|]. constructor; [discriminate|constructor]. Qed.
(** The preset and neologdn. *)
Theorem C97_presets : forall m n x y, differ_in m n x y ->
  (forall o ch a b, chanoma_preset o = Ok ch -> result ch x a -> result ch y b -> differ_in m n a b) /\
  (forall o ch a b, chanoma_neologdn o = Ok ch -> result ch x a -> result ch y b -> differ_in (m + 2) (n + 2) a b).
Proof.
  intros m n x y D. split; intros o ch a b H A B.
  - destruct (confined_preset o ch H) as [R F]. rewrite <- (Nat.add_0_r m), <- (Nat.add_0_r n). exact (C97_stays_local ch 0 F R m n x y a b D A B).
  - apply chanoma_neo_inv in H. subst ch. refine (C97_stays_local [MNeo NEO] 2 _ _ m n x y a b D A B); [|apply (rs_cons _ 2 [] 0); constructor].
    constructor; [|constructor]. intros k E. exists no_order. rewrite neologdn_new_eq. congruence.
Qed.
Print Assumptions C97_presets.

(** ** Numbers of changes *)
Lemma edits_trans n n' x y z : edits n x y -> edits n' y z -> edits (n + n') x z.
Proof.
  intros A B. revert n A. induction B as [y|n' y u z B IH D]; intros n A; [rewrite Nat.add_0_r; exact A|]. rewrite Nat.add_succ_r. econstructor; [apply IH, A|exact D].
Qed.
Lemma edits_stretch p s : forall k u v, List.length u <= k -> List.length v <= k -> edits k (p ++ u ++ s) (p ++ v ++ s).
Proof.
  intros k. revert p. induction k as [|k IH]; intros p u v Lu Lv; [destruct u; [|cbn in Lu; lia]; destruct v; [|cbn in Lv; lia]; constructor|].
  assert (S1 : exists u1 u2, u = u1 ++ u2 /\ List.length u1 <= 1 /\ List.length u2 <= k) by (destruct u as [|c u]; [exists [], []|exists [c], u]; cbn [List.length app] in *; repeat split; lia).
  assert (S2 : exists v1 v2, v = v1 ++ v2 /\ List.length v1 <= 1 /\ List.length v2 <= k) by (destruct v as [|c v]; [exists [], []|exists [c], v]; cbn [List.length app] in *; repeat split; lia).
  destruct S1 as (u1 & u2 & -> & L1 & L2), S2 as (v1 & v2 & -> & M1 & M2). change (S k) with (1 + k). apply (edits_trans 1 k _ (p ++ v1 ++ u2 ++ s)).
  - apply (ed_more 0 _ (p ++ u1 ++ u2 ++ s)); [rewrite <- app_assoc; constructor|]. exists p, u1, v1, (u2 ++ s). auto.
  - rewrite <- (app_assoc v1). rewrite !(app_assoc p v1). apply IH; assumption.
Qed.
(** Few changes of single characters have few effects on the result. *)
Theorem C97_few_changes : forall c k, Forall constructible c -> reaches c k -> forall n x y a b, edits n x y ->
  result c x a -> result c y b -> edits (n * (1 + k)) a b.
Proof.
  intros c k H R n x y a b E A. revert b. induction E as [x|n x y z E IH D]; intros b B.
  - destruct (C97_stays_local c k H R 0 0 x x a b) as (p & u & v & s & -> & -> & Lu & Lv); [exists x, [], [], []; cbn [List.length app]; rewrite app_nil_r; auto|exact A|exact B|].
    destruct (fold_confined c k H R) as (f & F & N). destruct A as (o & A), B as (o' & B). unfold normalize in A, B. cbn [negb] in A, B. rewrite N in A, B. apply Ok_inj in A. apply Ok_inj in B. rewrite <- A, <- B. constructor.
  - destruct (fold_confined c k H R) as (f & F & N). assert (Y : result c y (f y)) by (exists no_order; unfold normalize; cbn [negb]; apply N).
    destruct (C97_stays_local c k H R 1 1 y z (f y) b D Y B) as (p & u & v & s & E1 & E2 & Lu & Lv). replace (S n * (1 + k)) with (n * (1 + k) + (1 + k)) by lia.
    apply (edits_trans _ _ _ (f y)); [apply IH; assumption|]. rewrite E1, E2. apply edits_stretch; assumption.
Qed.
Print Assumptions C97_few_changes.

(** ** The numbers cannot be smaller *)
Definition differb (m n : nat) (x y : str) : bool :=
  existsb (fun i => existsb (fun j => existsb (fun k => (str_eqb (firstn i x) (firstn i y) && str_eqb (skipn j x) (skipn k y) && Nat.leb i j && Nat.leb i k && Nat.leb (j - i) m && Nat.leb (k - i) n)%bool) (seq 0 (S (List.length y)))) (seq 0 (S (List.length x)))) (seq 0 (S (List.length x))).
Lemma differb_complete m n x y : differ_in m n x y -> differb m n x y = true.
Proof.
  intros (p & u & v & s & -> & -> & Lu & Lv). unfold differb. apply existsb_exists. exists (List.length p). split; [apply in_seq; rewrite app_length; lia|].
  apply existsb_exists. exists (List.length p + List.length u). split; [apply in_seq; rewrite !app_length; lia|].
  apply existsb_exists. exists (List.length p + List.length v). split; [apply in_seq; rewrite !app_length; lia|].
  rewrite !andb_true_iff, !Nat.leb_le. repeat split; try lia.
  - apply str_eqb_eq. rewrite !firstn_app, Nat.sub_diag, !firstn_all. reflexivity.
  - assert (K : forall w : str, skipn (List.length p + List.length w) (p ++ w ++ s) = s) by (intros w; rewrite app_assoc, <- app_length, skipn_app, Nat.sub_diag, skipn_all; reflexivity).
    apply str_eqb_eq. rewrite !K. reflexivity.
Qed.
Theorem C97_exact : 
  (forall c, exists x y a b, differ_in 1 1 x y /\ result [MRed c] x a /\ result [MRed c] y b /\ ~ differ_in 1 1 a b) /\
  (exists x y a b, differ_in 1 1 x y /\ result [MDot] x a /\ result [MDot] y b /\ ~ differ_in 2 2 a b) /\
  (forall o ch, chanoma_neologdn o = Ok ch -> exists x y a b, differ_in 1 1 x y /\ result ch x a /\ result ch y b /\ ~ differ_in 2 2 a b).
Proof.
  split; [|split].
  - intros c. set (d := (c + 1)%N). assert (Hd : N.eqb c d = false) by (apply N.eqb_neq; unfold d; lia). assert (Hd' : N.eqb d c = false) by (apply N.eqb_neq; unfold d; lia).
    exists [c; c], [c; d; c], [c], [c; d; c]. split; [exists [c], [], [d], [c]; cbn; repeat split; lia|].
    split; [exists no_order; rewrite normalize_red, red_modify_rec; cbn [red_rec]; rewrite N.eqb_refl; reflexivity|].
    split; [exists no_order; rewrite normalize_red, red_modify_rec; cbn [red_rec]; rewrite !N.eqb_refl, Hd; reflexivity|].
    intros (p & u & v & s & E1 & E2 & Lu & Lv). apply (f_equal (@List.length char)) in E1, E2. rewrite !app_length in E1, E2. cbn [List.length] in E1, E2. lia.
  - exists [0x61; 0x20; 0x3042; 0x20; 0x62]%N, [0x61; 0x20; 0x78; 0x20; 0x62]%N, [0x61; 0x3042; 0x62]%N, [0x61; 0x20; 0x78; 0x20; 0x62]%N.
    split; [exists [0x61; 0x20]%N, [0x3042%N], [0x78%N], [0x20; 0x62]%N; cbn; repeat split; lia|]. split; [exists no_order; reflexivity|]. split; [exists no_order; reflexivity|].
    intros D. apply differb_complete in D. vm_compute in D. discriminate D.
  - intros o ch H. apply chanoma_neo_inv in H. subst ch. exists [0x61; 0x20; 0x3042; 0x20; 0x62]%N, [0x61; 0x20; 0x78; 0x20; 0x62]%N, [0x61; 0x3042; 0x62]%N, [0x61; 0x20; 0x78; 0x20; 0x62]%N.
    split; [exists [0x61; 0x20]%N, [0x3042%N], [0x78%N], [0x20; 0x62]%N; cbn; repeat split; lia|]. split; [exists no_order; vm_compute; reflexivity|]. split; [exists no_order; vm_compute; reflexivity|].
    intros D. apply differb_complete in D. vm_compute in D. discriminate D.
Qed.
Print Assumptions C97_exact.

(** Trimming and ligatures: one changed character can change the result over any length. *)
Lemma differ_ends m n a b : differ_in m n a b -> hd_error a <> hd_error b -> hd_error (rev a) <> hd_error (rev b) -> List.length a <= m /\ List.length b <= n.
Proof.
  intros (p & u & v & s & -> & -> & Lu & Lv) H1 H2. destruct p as [|c p]; [|cbn in H1; congruence]. cbn [app] in *.
  destruct s as [|c s _] using rev_ind; [rewrite !app_nil_r; auto|]. rewrite !app_assoc, !rev_app_distr in H2. cbn in H2. congruence.
Qed.
Theorem C97_trim_refuted : forall k, exists x y a b, differ_in 1 1 x y /\ result [MTrim] x a /\ result [MTrim] y b /\ ~ differ_in k k a b.
Proof.
  intros k. exists (lit "a" ++ repeat space (k + 1) ++ lit "b"), (lit " " ++ repeat space (k + 1) ++ lit "b"), (lit "a" ++ repeat space (k + 1) ++ lit "b"), (lit "b").
  split; [exists [], (lit "a"), (lit " "), (repeat space (k + 1) ++ lit "b"); cbn; repeat split; lia|].
  split; [exists no_order; apply C17_lemma; split; [discriminate|]; split; [rewrite app_assoc, rev_app_distr; discriminate|exists 0, 0; rewrite app_nil_r; reflexivity]|].
  split; [exists no_order; apply C17_lemma; split; [discriminate|]; split; [discriminate|exists (S (k + 1)), 0; reflexivity]|].
  intros (p & u & v & s & E1 & E2 & Lu & Lv). apply (f_equal (@List.length char)) in E1 as L1. rewrite !app_length, repeat_length in L1. cbn [lit List.length] in L1.
  apply (f_equal (@List.length char)) in E2 as L2. rewrite !app_length in L2. cbn [lit List.length] in L2. lia.
Qed.
Print Assumptions C97_trim_refuted.
Theorem C97_ligature_refuted : exists l, forall k, exists x y a b, differ_in 1 1 x y /\ result [MLig l] x a /\ result [MLig l] y b /\ ~ differ_in k k a b.
Proof.
  exists [(lit "aa", lit "b")]. intros k. exists (lit "a" ++ concat (repeat (lit "aa") (S k))), (lit "c" ++ concat (repeat (lit "aa") (S k))), (concat (repeat (lit "b") (S k)) ++ lit "a"), (lit "c" ++ concat (repeat (lit "b") (S k))).
  assert (A : forall n r r', replaced (fun k' v' => k' = lit "aa" /\ v' = lit "b") r r' -> replaced (fun k' v' => k' = lit "aa" /\ v' = lit "b") (concat (repeat (lit "aa") n) ++ r) (concat (repeat (lit "b") n) ++ r')).
  { intros n r r' H. induction n as [|n IH]; [exact H|]. cbn [repeat concat]. rewrite <- !app_assoc. apply rep_hit; [discriminate|auto|exact IH]. }
  assert (M : forall n, lit "a" ++ concat (repeat (lit "aa") n) = concat (repeat (lit "aa") n) ++ lit "a").
  { induction n as [|n IH]; [reflexivity|]. cbn [repeat concat]. rewrite <- app_assoc, <- IH. reflexivity. }
  split; [exists [], (lit "a"), (lit "c"), (concat (repeat (lit "aa") (S k))); repeat split; cbn; lia|].
  split; [exists no_order; apply C20_single_exact; [discriminate|]; rewrite M; apply A; apply rep_miss; [|constructor]; intros k' v' [-> _] (b & Q); discriminate Q|].
  split; [exists no_order; apply C20_single_exact; [discriminate|]; apply (rep_miss _ 0x63%N (concat (repeat (lit "aa") (S k))) (concat (repeat (lit "b") (S k))))|].
  - intros k' v' [-> _] (b & Q). discriminate Q.
  - rewrite <- (app_nil_r (concat (repeat (lit "aa") (S k)))), <- (app_nil_r (concat (repeat (lit "b") (S k)))). apply A. constructor.
  - intros D. assert (L : forall n, List.length (concat (repeat (lit "b") n)) = n) by (induction n as [|n IH]; [reflexivity|]; cbn [repeat concat]; rewrite app_length, IH; reflexivity).
    apply differ_ends in D; [|discriminate|].
    + destruct D as [D _]. rewrite app_length, L in D. lia.
    + assert (B : forall n, concat (repeat (lit "b") (S n)) = concat (repeat (lit "b") n) ++ lit "b") by (induction n as [|n IH]; [reflexivity|]; cbn [repeat concat] in *; rewrite <- app_assoc, <- IH; reflexivity).
      rewrite B, app_assoc, !rev_app_distr. discriminate.
Qed.
Print Assumptions C97_ligature_refuted.
Example C97_case : differ_in 1 2 (lit "12") (lit "1ab") /\ edits 3 (lit "kitten") (lit "sitting") /\
  (exists a b, result [MRed 0x61%N; MDot; MElim (lit "x")] (lit "b a aa xc") a /\ result [MRed 0x61%N; MDot; MElim (lit "x")] (lit "b aaaa xc") b /\ a = lit "b a a c" /\ b = lit "b a c" /\ differ_in 4 4 a b).
Proof.
  split; [exists (lit "1"), (lit "2"), (lit "ab"), []; cbn; repeat split; lia|]. split.
  - apply (ed_more 2 _ (lit "sittin")); [apply (ed_more 1 _ (lit "sitten")); [apply (ed_more 0 _ (lit "kitten")); [constructor|]|]|].
    + exists [], (lit "k"), (lit "s"), (lit "itten"). cbn; repeat split; lia.
    + exists (lit "sitt"), (lit "e"), (lit "i"), (lit "n"). cbn; repeat split; lia.
    + exists (lit "sittin"), [], (lit "g"), []. cbn; repeat split; lia.
  - eexists. eexists. split; [exists no_order; reflexivity|]. split; [exists no_order; reflexivity|]. split; [reflexivity|]. split; [reflexivity|].
    exists (lit "b a"), (lit " a"), [], (lit " c"). cbn; repeat split; lia.
Qed.

(** ** Ligature maps whose keys never share characters *)
(** A stretch of [n] characters grows to at most [f n]: keys of at most [K + 1] characters reach [K] characters to either
    side, and a value has at most [V] characters. *)
Inductive widens : chanoma -> (nat -> nat) -> Prop :=
| wi_nil : widens [] (fun n => n)
| wi_plain m k c f : reach m k -> widens c f -> widens (m :: c) (fun n => f (n + k))
| wi_lig l K V c f : NoDup (map fst l) -> non_interfering l -> separate l ->
    (forall k v, In (k, v) l -> List.length k <= S K /\ List.length v <= V) -> 1 <= V ->
    widens c f -> widens (MLig l :: c) (fun n => f ((n + 2 * K) * V)).
Theorem C97_ligatures : forall c f, Forall constructible c -> widens c f -> forall m n x y a b, differ_in m n x y ->
  result c x a -> result c y b -> differ_in (f m) (f n) a b.
Proof.
  intros c f H W m n x y a b D (o & A) (o' & B). unfold normalize in A, B. cbn [negb] in A, B. revert A B. generalize 0 at 1. generalize 0. revert H m n x y D.
  induction W as [|md k c f R W IH|l K V c f Nd Ni Sp Sz PV W IH]; intros H m n x y D i j A B.
  - cbn [normalize_fold] in A, B. apply Ok_inj in A. apply Ok_inj in B. subst a b. exact D.
  - inversion H as [|? ? Hm Hc]; subst. destruct (modify_confined md k Hm R) as (g & G & E). cbn [normalize_fold] in A, B. rewrite E in A, B. cbn [bind] in A, B. exact (IH Hc _ _ _ _ (G _ _ _ _ D) _ _ A B).
  - inversion H as [|? ? Hm Hc]; subst. cbn [normalize_fold modify bind] in A, B. refine (IH Hc _ _ _ _ _ _ _ A B). apply (lig_differ l K V Nd Ni (separate_apart l Sp) Sz PV). exact D.
Qed.
Print Assumptions C97_ligatures.
Definition ab_c : ligature := [(lit "ab", lit "c")].
Lemma ab_separate : separate ab_c.
Proof.
  assert (N : forall s i, occurs_at (lit "ab") s i -> nth_error s i = Some 0x61%N /\ nth_error s (i + 1) = Some 0x62%N).
  { intros s i (a & b & -> & <-). split; rewrite nth_error_app2 by lia; [rewrite Nat.sub_diag|replace (List.length a + 1 - List.length a) with 1 by lia]; reflexivity. }
  intros s k v k' v' i j [E|[]] [E'|[]]. injection E as <- <-. injection E' as <- <-. intros O O'. apply N in O as [A B], O' as [A' B']. cbn [lit List.length].
  destruct (Nat.eq_dec i j) as [->|D]; [left; auto|right]. destruct (Nat.eq_dec j (i + 1)) as [->|D1]; [congruence|]. destruct (Nat.eq_dec i (j + 1)) as [->|D2]; [congruence|]. change (List.length (lit "ab")) with 2. lia.
Qed.
Lemma ab_wide : widens [MLig ab_c] (fun n => (n + 2) * 1).
Proof.
  apply (wi_lig ab_c 1 1 [] (fun n => n)).
  - constructor; [intros []|constructor].
  - split; [intros k v [E|[]]; injection E as <- <-; split; discriminate|]. split; [intros k v k' v' [E|[]] [E'|[]] D; injection E as <- <-; injection E' as <- <-; contradiction|].
    intros k v k' v' x [E|[]] [E'|[]]. injection E as <- <-. injection E' as <- <-. intros [<-|[]] Q. cbn in Q. destruct Q as [Q|[Q|[]]]; discriminate Q.
  - exact ab_separate.
  - intros k v [E|[]]. injection E as <- <-. split; cbn; lia.
  - lia.
  - constructor.
Qed.
(** This number cannot be smaller either. *)
Theorem C97_ligatures_exact : exists l f x y a b, widens [MLig l] f /\ differ_in 2 2 x y /\ result [MLig l] x a /\ result [MLig l] y b /\ f 2 = 4 /\ forall k, ~ differ_in k 3 a b.
Proof.
  exists ab_c, (fun n => (n + 2) * 1), (lit "abab"), (lit "axyb"), (lit "cc"), (lit "axyb"). split; [exact ab_wide|]. split; [exists (lit "a"), (lit "ba"), (lit "xy"), (lit "b"); cbn; repeat split; lia|].
  split; [exists no_order; reflexivity|]. split; [exists no_order; reflexivity|]. split; [reflexivity|]. intros k D. apply differ_ends in D; [|discriminate|discriminate]. destruct D as [_ D]. cbn in D. lia.
Qed.
Print Assumptions C97_ligatures_exact.
Example C97_case_ligatures : widens [MRed 0x61%N; MLig ab_c] (fun n => (n + 1 + 2) * 1) /\ Forall constructible [MRed 0x61%N; MLig ab_c] /\
  result [MRed 0x61%N; MLig ab_c] (lit "xaabyab") (lit "xcyc") /\ result [MRed 0x61%N; MLig ab_c] (lit "xaazyab") (lit "xazyc") /\ differ_in 1 2 (lit "xcyc") (lit "xazyc").
Proof.
  split; [exact (wi_plain _ 1 _ (fun n => (n + 2) * 1) (re_red _) ab_wide)|]. split; [repeat constructor; discriminate|]. split; [exists no_order; reflexivity|]. split; [exists no_order; reflexivity|].
  exists (lit "x"), (lit "c"), (lit "az"), (lit "yc"). cbn. repeat split; lia.
Qed.
