(** Lemmas for C97: a change of a text under a ligature map whose keys never share characters. *)
From Verif Require Import Base StrOps Ligature Spec BaseFacts LigFacts EditSpec EditFacts.

(** ** Places where two sets of intervals can both be cut *)
Section Cut.
  Context (A B : nat -> nat -> Prop) (P K : nat).
  Definition apart (I : nat -> nat -> Prop) : Prop := forall a b a' b', I a b -> I a' b' -> (a = a' /\ b = b') \/ b <= a' \/ b' <= a.
  Definition across (I : nat -> nat -> Prop) (c : nat) : Prop := exists a b, I a b /\ a < c < b.
  Hypothesis apartA : apart A.
  Hypothesis apartB : apart B.
  Hypothesis short : forall a b, A a b \/ B a b -> b <= a + S K.
  Hypothesis same : forall a b, b <= P -> (A a b <-> B a b).
  Hypothesis decA : across A P \/ ~ across A P.
  Hypothesis decB : across B P \/ ~ across B P.
  Lemma cut : exists c, c <= P /\ P <= c + K /\ ~ across A c /\ ~ across B c.
  Proof.
    destruct decA as [(a & b & Ha & La)|NA], decB as [(a' & b' & Hb & Lb)|NB].
    - pose proof (short a b (or_introl Ha)). pose proof (short a' b' (or_intror Hb)). destruct (Nat.le_gt_cases a a') as [L|L].
      + exists a. repeat split; try lia.
        * intros (x & y & Hx & Lx). destruct (apartA _ _ _ _ Ha Hx) as [[-> ->]|[?|?]]; lia.
        * intros (x & y & Hx & Lx). destruct (apartB _ _ _ _ Hb Hx) as [[-> ->]|[?|Q]]; [lia|lia|]. apply same in Hx; [|lia]. destruct (apartA _ _ _ _ Ha Hx) as [[-> ->]|[?|?]]; lia.
      + exists a'. repeat split; try lia.
        * intros (x & y & Hx & Lx). destruct (apartA _ _ _ _ Ha Hx) as [[-> ->]|[?|Q]]; [lia|lia|]. apply same in Hx; [|lia]. destruct (apartB _ _ _ _ Hb Hx) as [[-> ->]|[?|?]]; lia.
        * intros (x & y & Hx & Lx). destruct (apartB _ _ _ _ Hb Hx) as [[-> ->]|[?|?]]; lia.
    - pose proof (short a b (or_introl Ha)). exists a. repeat split; try lia.
      + intros (x & y & Hx & Lx). destruct (apartA _ _ _ _ Ha Hx) as [[-> ->]|[?|?]]; lia.
      + intros (x & y & Hx & Lx). destruct (Nat.le_gt_cases y P) as [L|L]; [|apply NB; exists x, y; split; [exact Hx|lia]].
        apply same in Hx; [|exact L]. destruct (apartA _ _ _ _ Ha Hx) as [[-> ->]|[?|?]]; lia.
    - pose proof (short a' b' (or_intror Hb)). exists a'. repeat split; try lia.
      + intros (x & y & Hx & Lx). destruct (Nat.le_gt_cases y P) as [L|L]; [|apply NA; exists x, y; split; [exact Hx|lia]].
        apply same in Hx; [|exact L]. destruct (apartB _ _ _ _ Hb Hx) as [[-> ->]|[?|?]]; lia.
      + intros (x & y & Hx & Lx). destruct (apartB _ _ _ _ Hb Hx) as [[-> ->]|[?|?]]; lia.
    - exists P. repeat split; auto; lia.
  Qed.
End Cut.

(** ** Occurrences of the keys *)
Definition at_ (l : list (str * str)) (s : str) (a b : nat) : Prop := exists k v, In (k, v) l /\ occurs_at k s a /\ b = a + length k.
Lemma occurs_at_iff (k s : str) i : occurs_at k s i <-> i + length k <= length s /\ firstn (length k) (skipn i s) = k.
Proof.
  split.
  - intros (a & b & -> & <-). rewrite !app_length. split; [lia|]. rewrite skipn_app, skipn_all, Nat.sub_diag. cbn [app skipn]. rewrite firstn_app, Nat.sub_diag, firstn_all. cbn [firstn]. apply app_nil_r.
  - intros [L E]. exists (firstn i s), (skipn (length k) (skipn i s)). split; [|rewrite firstn_length; lia]. rewrite <- (firstn_skipn i s) at 1. f_equal. rewrite <- (firstn_skipn (length k) (skipn i s)) at 1. rewrite E. reflexivity.
Qed.
Lemma across_dec l s c : across (at_ l s) c \/ ~ across (at_ l s) c.
Proof.
  destruct (existsb (fun p : str * str => existsb (fun i => (Nat.leb (i + length (fst p)) (length s) && str_eqb (firstn (length (fst p)) (skipn i s)) (fst p) && Nat.ltb c (i + length (fst p)))%bool) (seq 0 c)) l) eqn:E.
  - left. apply existsb_exists in E as ([k v] & I & E). apply existsb_exists in E as (i & J & E). cbn [fst] in E. apply andb_true_iff in E as [E L]. apply andb_true_iff in E as [E1 E2].
    apply Nat.leb_le in E1. apply str_eqb_eq in E2. apply Nat.ltb_lt in L. apply in_seq in J. exists i, (i + length k). split; [exists k, v; repeat split; auto; apply occurs_at_iff; auto|lia].
  - right. intros (a & b & (k & v & I & O & ->) & L). apply occurs_at_iff in O as [O1 O2].
    rewrite (proj2 (existsb_exists _ l)) in E; [discriminate E|]. exists (k, v). split; [exact I|]. apply existsb_exists. exists a. split; [apply in_seq; lia|]. cbn [fst].
    rewrite !andb_true_iff, Nat.leb_le, Nat.ltb_lt. repeat split; try lia. apply str_eqb_eq, O2.
Qed.
Lemma occurs_left (k p w : str) i : i + length k <= length p -> (occurs_at k (p ++ w) i <-> occurs_at k p i).
Proof.
  intros L. rewrite !occurs_at_iff, app_length, skipn_app, firstn_app, skipn_length. replace (length k - (length p - i)) with 0 by lia. cbn [firstn]. rewrite app_nil_r. intuition lia.
Qed.
Lemma occurs_right (k p w : str) i : occurs_at k (p ++ w) (length p + i) <-> occurs_at k w i.
Proof.
  rewrite !occurs_at_iff, app_length, skipn_app. replace (length p + i - length p) with i by lia. rewrite (skipn_all2 p) by lia. cbn [app]. intuition lia.
Qed.

(** ** Replacing in two parts *)
Lemma replaced_cut l s out : replaced (rules l) s out -> forall a b, s = a ++ b -> ~ across (at_ l s) (length a) ->
  exists oa ob, out = oa ++ ob /\ replaced (rules l) a oa /\ replaced (rules l) b ob.
Proof.
  induction 1 as [|k v s out Nk Hk H IH|x s out M H IH]; intros a b E C.
  - symmetry in E. apply app_eq_nil in E as [-> ->]. exists [], []. repeat split; constructor.
  - destruct a as [|c a]; [cbn [app] in E; subst b; exists [], (v ++ out); repeat split; [constructor|apply rep_hit; assumption]|].
    destruct (Nat.le_gt_cases (length k) (length (c :: a))) as [L|L].
    + assert (E' : c :: a = k ++ skipn (length k) (c :: a)).
      { rewrite <- (firstn_skipn (length k) (c :: a)) at 1. f_equal. apply (f_equal (firstn (length k))) in E. rewrite firstn_app, Nat.sub_diag, firstn_all in E. cbn [firstn] in E. rewrite app_nil_r in E.
        rewrite firstn_app in E. replace (length k - length (c :: a)) with 0 in E by lia. cbn [firstn] in E. rewrite app_nil_r in E. symmetry. exact E. }
      set (a' := skipn (length k) (c :: a)) in *. rewrite E', <- app_assoc in E. apply app_inv_head in E. destruct (IH a' b E) as (oa & ob & -> & Ha & Hb).
      { intros (i & j & (k' & v' & I & O & ->) & Q). apply C. exists (length k + i), (length k + i + length k'). split; [exists k', v'; repeat split; auto; apply occurs_right, O|]. rewrite E', app_length. lia. }
      exists (v ++ oa), ob. rewrite E', <- app_assoc. repeat split; [apply rep_hit; assumption|exact Hb].
    + exfalso. apply C. exists 0, (length k). split; [exists k, v; repeat split; auto; exists [], s; auto|]. cbn [length] in *. lia.
  - destruct a as [|c a]; [cbn [app] in E; subst b; exists [], (x :: out); repeat split; [constructor|apply rep_miss; assumption]|].
    injection E as <- E. destruct (IH a b E) as (oa & ob & -> & Ha & Hb).
    { intros (i & j & (k' & v' & I & O & ->) & Q). apply C. exists (S i), (S i + length k'). split; [exists k', v'; repeat split; auto; apply (occurs_right k' [x] s i), O|]. cbn [length]. lia. }
    exists (x :: oa), ob. repeat split; [|exact Hb]. apply rep_miss; [|exact Ha]. intros k v Hk (r & Q). apply (M k v Hk). exists (r ++ b). rewrite E. change (x :: a ++ b) with ((x :: a) ++ b). rewrite Q, app_assoc. reflexivity.
Qed.
Lemma replaced_length l V s out : 1 <= V -> (forall k v, In (k, v) l -> length v <= V) -> replaced (rules l) s out -> length out <= length s * V.
Proof.
  intros LV HV H. induction H as [|k v s out Nk Hk H IH|x s out M H IH]; cbn [length]; [lia| |lia].
  rewrite !app_length. pose proof (HV k v Hk). destruct k as [|c k]; [contradiction|]. cbn [length]. nia.
Qed.
Lemma separate_apart l : separate l -> forall s, apart (at_ l s).
Proof. intros S s a b a' b' (k & v & I & O & ->) (k' & v' & I' & O' & ->). destruct (S s k v k' v' a a' I I' O O') as [[<- <-]|D]; auto. Qed.

Section Lig.
  Context (l : list (str * str)) (K V : nat).
  Hypothesis nd : NoDup (map fst l).
  Hypothesis ni : non_interfering l.
  Hypothesis sep : forall s, apart (at_ l s).
  Hypothesis sizes : forall k v, In (k, v) l -> length k <= S K /\ length v <= V.
  Hypothesis posV : 1 <= V.
  Lemma cut_left p w1 w2 : exists p1 p2, p = p1 ++ p2 /\ length p2 <= K /\ ~ across (at_ l (p ++ w1)) (length p1) /\ ~ across (at_ l (p ++ w2)) (length p1).
  Proof.
    destruct (cut (at_ l (p ++ w1)) (at_ l (p ++ w2)) (length p) K) as (c & L1 & L2 & C1 & C2); try apply sep; try apply across_dec.
    - intros a b [(k & v & I & _ & ->)|(k & v & I & _ & ->)]; destruct (sizes k v I); lia.
    - intros a b L. split; intros (k & v & I & O & ->); exists k, v; (split; [exact I|]); (split; [|reflexivity]); apply (proj1 (occurs_left _ _ _ _ L)) in O; apply (proj2 (occurs_left _ _ _ _ L)); exact O.
    - exists (firstn c p), (skipn c p). rewrite firstn_length, skipn_length, Nat.min_l by exact L1. split; [symmetry; apply firstn_skipn|]. repeat split; auto; lia.
  Qed.
  Definition mirror (n : nat) (I : nat -> nat -> Prop) (a b : nat) : Prop := exists x y, I x y /\ x <= y <= n /\ a = n - y /\ b = n - x.
  Lemma at_bound s a b : at_ l s a b -> a < b <= length s.
  Proof. intros (k & v & I & O & ->). apply occurs_at_iff in O as [O _]. destruct (proj1 ni _ _ I) as [N _]. destruct k; [contradiction|]. cbn [length] in *. lia. Qed.
  Lemma mirror_across s c : c <= length s -> (across (mirror (length s) (at_ l s)) (length s - c) <-> across (at_ l s) c).
  Proof.
    intros L. split.
    - intros (a & b & (x & y & I & Q & -> & ->) & R). exists x, y. split; [exact I|lia].
    - intros (x & y & I & R). pose proof (at_bound s x y I). exists (length s - y), (length s - x). split; [exists x, y; repeat split; auto; lia|lia].
  Qed.
  Lemma mirror_apart s : apart (mirror (length s) (at_ l s)).
  Proof. intros a b a' b' (x & y & I & Q & -> & ->) (x' & y' & I' & Q' & -> & ->). destruct (sep s _ _ _ _ I I') as [[-> ->]|[?|?]]; [left; auto|right; lia|right; lia]. Qed.
  Lemma cut_right w1 w2 s : exists s1 s2, s = s1 ++ s2 /\ length s1 <= K /\ ~ across (at_ l (w1 ++ s)) (length (w1 ++ s1)) /\ ~ across (at_ l (w2 ++ s)) (length (w2 ++ s1)).
  Proof.
    assert (D : forall w, across (mirror (length (w ++ s)) (at_ l (w ++ s))) (length s) \/ ~ across (mirror (length (w ++ s)) (at_ l (w ++ s))) (length s)).
    { intros w. assert (L : length w <= length (w ++ s)) by (rewrite app_length; lia). pose proof (mirror_across (w ++ s) (length w) L) as M. assert (E : length (w ++ s) - length w = length s) by (rewrite app_length; lia).
      rewrite E in M. destruct (across_dec l (w ++ s) (length w)) as [Y|N]; [left; apply M, Y|right; intros Q; apply N, M, Q]. }
    assert (T : forall w w' a b, b <= length s -> mirror (length (w ++ s)) (at_ l (w ++ s)) a b -> mirror (length (w' ++ s)) (at_ l (w' ++ s)) a b).
    { intros w w' a b L (x & y & (k & v & I & O & ->) & Q & -> & ->). rewrite app_length in *. assert (X : x = length w + (x - length w)) by lia. rewrite X in O. apply (proj1 (occurs_right k w s (x - length w))) in O.
      exists (length w' + (x - length w)), (length w' + (x - length w) + length k). split; [exists k, v; repeat split; auto; apply (proj2 (occurs_right k w' s (x - length w))), O|]. rewrite ?app_length. lia. }
    destruct (cut (mirror (length (w1 ++ s)) (at_ l (w1 ++ s))) (mirror (length (w2 ++ s)) (at_ l (w2 ++ s))) (length s) K) as (c & L1 & L2 & C1 & C2); try apply mirror_apart; try apply D.
    - intros a b [(x & y & (k & v & I & _ & ->) & Q & -> & ->)|(x & y & (k & v & I & _ & ->) & Q & -> & ->)]; destruct (sizes k v I); lia.
    - intros a b L. split; apply T; exact L.
    - exists (firstn (length s - c) s), (skipn (length s - c) s). split; [symmetry; apply firstn_skipn|]. rewrite !app_length, firstn_length. split; [lia|].
      assert (N : forall w, ~ across (mirror (length (w ++ s)) (at_ l (w ++ s))) c -> ~ across (at_ l (w ++ s)) (length w + Nat.min (length s - c) (length s))).
      { intros w N Q. apply N. assert (L : length w + Nat.min (length s - c) (length s) <= length (w ++ s)) by (rewrite app_length; lia). apply (mirror_across _ _ L) in Q.
        assert (E : length (w ++ s) - (length w + Nat.min (length s - c) (length s)) = c) by (rewrite app_length; lia). rewrite E in Q. exact Q. }
      split; apply N; assumption.
  Qed.
  Lemma lig_differ o o' m n x y : differ_in m n x y -> differ_in ((m + 2 * K) * V) ((n + 2 * K) * V) (lig_modify o l x) (lig_modify o' l y).
  Proof.
    intros (p & u & v & s & -> & -> & Lu & Lv). pose proof (lig_replaced o l (p ++ u ++ s) nd ni) as X. pose proof (lig_replaced o' l (p ++ v ++ s) nd ni) as Y.
    set (a := lig_modify o l _) in *. set (b := lig_modify o' l _) in *. clearbody a b.
    destruct (cut_left p (u ++ s) (v ++ s)) as (p1 & p2 & Ep & L2 & C1 & C2). destruct (cut_right (p ++ u) (p ++ v) s) as (s1 & s2 & Es & L1 & D1 & D2). rewrite <- !app_assoc in D1, D2.
    assert (G : forall w z, replaced (rules l) (p ++ w ++ s) z -> ~ across (at_ l (p ++ w ++ s)) (length p1) -> ~ across (at_ l (p ++ w ++ s)) (length (p ++ w ++ s1)) ->
      exists z1 z2 z3, z = z1 ++ z2 ++ z3 /\ replaced (rules l) p1 z1 /\ length z2 <= (length w + 2 * K) * V /\ replaced (rules l) s2 z3).
    { intros w z Z N1 N2. destruct (replaced_cut l _ _ Z (p ++ w ++ s1) s2) as (z' & z3 & -> & Z' & Z3); [rewrite Es, <- !app_assoc; reflexivity|exact N2|].
      destruct (replaced_cut l _ _ Z' p1 (p2 ++ w ++ s1)) as (z1 & z2 & -> & Z1 & Z2); [rewrite Ep, <- !app_assoc; reflexivity| |].
      - intros (i & j & (k & w' & I & O & ->) & Q). apply N1. exists i, (i + length k). split; [|exact Q]. exists k, w'. repeat split; auto. rewrite Es. replace (p ++ w ++ s1 ++ s2) with ((p ++ w ++ s1) ++ s2) by (rewrite <- !app_assoc; reflexivity).
        apply occurs_left; [apply occurs_at_iff in O; apply O|exact O].
      - exists z1, z2, z3. rewrite <- app_assoc. repeat split; auto. apply (replaced_length l V) in Z2; [|exact posV|intros k w' I; apply (sizes k w' I)]. rewrite !app_length in Z2. nia. }
    destruct (G u a X C1 D1) as (a1 & a2 & a3 & -> & A1 & A2 & A3). destruct (G v b Y C2 D2) as (b1 & b2 & b3 & -> & B1 & B2 & B3).
    pose proof (replaced_det _ (rules_det l nd ni) _ _ _ A1 B1) as <-. pose proof (replaced_det _ (rules_det l nd ni) _ _ _ A3 B3) as <-.
    exists a1, a2, b2, a3. repeat split; nia.
  Qed.
End Lig.
