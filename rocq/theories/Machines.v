(** Functions on texts computed by machines with finitely many states that may guess, and a bound on the shortest
    text on which two such functions differ (for C108). *)
From Verif Require Import Base.
From Coq Require Import Lia.

Record machine := {
  st : Type;
  sts : list st;
  st_dec : forall a b : st, {a = b} + {a <> b};
  ini : st;
  tr : st -> char -> str -> st -> Prop;
  fin : st -> str -> Prop;
  ini_in : In ini sts;
  tr_in : forall s c w s', In s sts -> tr s c w s' -> In s' sts }.
Arguments tr {_}. Arguments fin {_}. Arguments ini : clear implicits.

(** What the machine can write, from a state, for a text. *)
Fixpoint acc {M : machine} (s : st M) (t : str) (out : str) : Prop :=
  match t with
  | [] => fin s out
  | c :: t' => exists w s' o, tr s c w s' /\ acc s' t' o /\ out = w ++ o
  end.
Definition computes (M : machine) (f : str -> str) : Prop := forall t out, acc (ini M) t out <-> out = f t.
(** Computed by a machine with at most [n] states. *)
Definition sized (n : nat) (f : str -> str) : Prop := exists M, length (sts M) <= n /\ computes M f.

Lemma sized_ext n f g : (forall t, f t = g t) -> sized n f -> sized n g.
Proof. intros E (M & L & C). exists M. split; [exact L|]. intros t out. rewrite <- E. apply C. Qed.
Lemma sized_le n m f : n <= m -> sized n f -> sized m f.
Proof. intros L (M & L' & C). exists M. split; [lia|exact C]. Qed.

(** Machines that do not guess. *)
Section Det.
  Context {S : Type} (all : list S) (all_in : forall s, In s all) (dec : forall a b : S, {a = b} + {a <> b})
    (step : S -> char -> S * str) (fn : S -> str).
  Fixpoint det (s : S) (t : str) : str := match t with [] => fn s | c :: r => snd (step s c) ++ det (fst (step s c)) r end.
  Definition det_machine (s0 : S) : machine :=
    {| st := S; sts := all; st_dec := dec; ini := s0;
       tr := fun s c w s' => step s c = (s', w); fin := fun s w => w = fn s;
       ini_in := all_in s0; tr_in := fun s c w s' _ _ => all_in s' |}.
  Lemma det_acc s0 t : forall s out, @acc (det_machine s0) s t out <-> out = det s t.
  Proof.
    induction t as [|c t IH]; intros s out; cbn [acc det]; [reflexivity|]. split.
    - intros (w & s' & o & T & A & ->). cbn in T. rewrite T. cbn [fst snd]. f_equal. apply IH. exact A.
    - intros ->. exists (snd (step s c)), (fst (step s c)), (det (fst (step s c)) t). split; [apply surjective_pairing|]. split; [apply IH|]; reflexivity.
  Qed.
  Lemma sized_det s0 : sized (length all) (det s0).
  Proof. exists (det_machine s0). split; [cbn; lia|]. intros t out. apply det_acc. Qed.
End Det.

(** ** One machine behind another *)
Section Compose.
  Context (M N : machine).
  Inductive runs : st N -> str -> str -> st N -> Prop :=
  | runs_nil q : runs q [] [] q
  | runs_cons q c w q' t v q'' : tr q c w q' -> runs q' t v q'' -> runs q (c :: t) (w ++ v) q''.
  Lemma runs_acc q t : forall u out, acc q (t ++ u) out <-> exists w q' o, runs q t w q' /\ acc q' u o /\ out = w ++ o.
  Proof.
    revert q. induction t as [|c t IH]; intros q u out; cbn [app acc].
    - split.
      + intros A. exists [], q, out. split; [constructor|]. split; [exact A|reflexivity].
      + intros (w & q' & o & R & A & ->). inversion R; subst. exact A.
    - split.
      + intros (w & q' & o & T & A & ->). apply IH in A as (w' & q'' & o' & R & A & ->).
        exists (w ++ w'), q'', o'. split; [econstructor; eassumption|]. split; [exact A|apply app_assoc].
      + intros (w & q' & o & R & A & ->). inversion R as [|? ? w1 q1 ? v1 ? T R1]; subst. exists w1, q1, (v1 ++ o).
        split; [exact T|]. split; [apply IH; exists v1, q', o; auto|]. symmetry; apply app_assoc.
  Qed.
  Lemma runs_in q t w q' : runs q t w q' -> In q (sts N) -> In q' (sts N).
  Proof. induction 1; auto. intros I. apply IHruns. eapply tr_in; eassumption. Qed.
  Definition both_tr (s : st M * st N) (c : char) (w : str) (s' : st M * st N) : Prop :=
    exists m, tr (fst s) c m (fst s') /\ runs (snd s) m w (snd s').
  Lemma both_in s c w s' : In s (list_prod (sts M) (sts N)) -> both_tr s c w s' -> In s' (list_prod (sts M) (sts N)).
  Proof.
    destruct s as [a b], s' as [a' b']. intros I (m & T & R). apply in_prod_iff in I as [I J]. apply in_prod.
    - eapply tr_in; eassumption.
    - eapply runs_in; eassumption.
  Qed.
  Definition both : machine :=
    {| st := st M * st N; sts := list_prod (sts M) (sts N);
       st_dec := fun a b => ltac:(decide equality; apply st_dec);
       ini := (ini M, ini N);
       tr := both_tr;
       fin := fun s w => exists m, fin (fst s) m /\ acc (snd s) m w;
       ini_in := in_prod _ _ _ _ (ini_in M) (ini_in N); tr_in := both_in |}.
  Lemma both_acc t : forall s q out, @acc both (s, q) t out <-> exists m, acc s t m /\ acc q m out.
  Proof.
    induction t as [|c t IH]; intros s q out; cbn [acc].
    - reflexivity.
    - split.
      + intros (w & [s' q'] & o & (m & T & R) & A & ->). cbn [fst snd] in T, R. apply IH in A as (m' & A & B).
        exists (m ++ m'). split; [exists m, s', m'; auto|]. apply runs_acc. exists w, q', o. auto.
      + intros (mm & (m & s' & m' & T & A & ->) & B). apply runs_acc in B as (w & q' & o & R & B & ->).
        exists w, (s', q'), o. split; [exists m; auto|]. split; [apply IH; eauto|reflexivity].
  Qed.
End Compose.
Lemma sized_comp n m f g : sized n f -> sized m g -> sized (n * m) (fun t => g (f t)).
Proof.
  intros (M & L & C) (N & L' & C'). exists (both M N). split.
  - etransitivity; [apply Nat.eq_le_incl, (prod_length (sts M) (sts N))|]. apply Nat.mul_le_mono; assumption.
  - intros t out. change (ini (both M N)) with (ini M, ini N). rewrite both_acc. split.
    + intros (mm & A & B). apply C in A. apply C' in B. congruence.
    + intros ->. exists (f t). split; [apply C|apply C']; reflexivity.
Qed.

(** ** The shortest text on which two functions differ *)
Lemma repetition {A} (dec : forall a b : A, {a = b} + {a <> b}) (l all : list A) :
  incl l all -> length all < length l -> exists x l1 l2 l3, l = l1 ++ x :: l2 ++ x :: l3.
Proof.
  intros I L. assert (N : ~ NoDup l) by (intros D; pose proof (NoDup_incl_length D I); lia). clear I L.
  induction l as [|a l IH]; [destruct N; constructor|]. destruct (in_dec dec a l) as [H|H].
  - apply in_split in H as (l2 & l3 & ->). exists a, [], l2, l3. reflexivity.
  - destruct IH as (x & l1 & l2 & l3 & E); [intros D; apply N; constructor; assumption|]. exists x, (a :: l1), l2, l3. rewrite E. reflexivity.
Qed.

Section Two.
  Context (M N : machine).
  Definition pair : Type := st M * st N.
  (** One character read by both: what each writes, and the states reached. *)
  Definition move : Type := char * str * str * pair.
  Fixpoint goes (s : pair) (l : list move) (s' : pair) : Prop :=
    match l with
    | [] => s = s'
    | (c, w, v, r) :: l' => tr (fst s) c w (fst r) /\ tr (snd s) c v (snd r) /\ goes r l' s'
    end.
  Definition reads (l : list move) : str := map (fun m => fst (fst (fst m))) l.
  Definition out1 (l : list move) : str := concat (map (fun m => snd (fst (fst m))) l).
  Definition out2 (l : list move) : str := concat (map (fun m => snd (fst m)) l).
  Definition at_of (l : list move) : list pair := map snd l.
  Lemma out1_app a b : out1 (a ++ b) = out1 a ++ out1 b. Proof. unfold out1. rewrite map_app, concat_app. reflexivity. Qed.
  Lemma out2_app a b : out2 (a ++ b) = out2 a ++ out2 b. Proof. unfold out2. rewrite map_app, concat_app. reflexivity. Qed.
  Lemma reads_app a b : reads (a ++ b) = reads a ++ reads b. Proof. apply map_app. Qed.
  Lemma goes_app s a b s' : goes s (a ++ b) s' <-> exists r, goes s a r /\ goes r b s'.
  Proof.
    revert s. induction a as [|[[[c w] v] r] a IH]; intros s; cbn [app goes].
    - split; [intros H; exists s; auto|intros (r & -> & H); exact H].
    - rewrite IH. split.
      + intros (T & T' & x & G & G'). exists x. auto.
      + intros (x & (T & T' & G) & G'). eauto.
  Qed.
  (** Two accepting runs on one text as one sequence of moves. *)
  Lemma acc_goes t : forall s q o1 o2, acc s t o1 -> acc q t o2 ->
    exists l s' q' e1 e2, goes (s, q) l (s', q') /\ reads l = t /\ fin s' e1 /\ fin q' e2 /\ o1 = out1 l ++ e1 /\ o2 = out2 l ++ e2.
  Proof.
    induction t as [|c t IH]; intros s q o1 o2; cbn [acc].
    - intros A B. exists [], s, q, o1, o2. cbn. auto 10.
    - intros (w & s1 & o & T & A & ->) (v & q1 & o' & T' & B & ->).
      destruct (IH _ _ _ _ A B) as (l & s' & q' & e1 & e2 & G & R & F & F' & -> & ->).
      exists ((c, w, v, (s1, q1)) :: l), s', q', e1, e2. cbn [goes fst snd]. split; [auto|]. split; [cbn; f_equal; exact R|].
      split; [exact F|]. split; [exact F'|]. unfold out1, out2. cbn [map concat fst snd]. rewrite !app_assoc. auto.
  Qed.
  Lemma goes_acc l : forall s s' e1 e2, goes s l s' -> fin (fst s') e1 -> fin (snd s') e2 ->
    acc (fst s) (reads l) (out1 l ++ e1) /\ acc (snd s) (reads l) (out2 l ++ e2).
  Proof.
    induction l as [|[[[c w] v] r] l IH]; intros s s' e1 e2; cbn [goes].
    - intros <- F F'. cbn. auto.
    - intros (T & T' & G) F F'. destruct (IH _ _ _ _ G F F') as [A B]. unfold out1, out2. cbn [reads map concat fst snd acc]. rewrite <- !app_assoc.
      split; [exists w, (fst r), (out1 l ++ e1)|exists v, (snd r), (out2 l ++ e2)]; auto.
  Qed.
  Lemma goes_at l1 : forall s l s' r l2, goes s l s' -> s :: at_of l = l1 ++ r :: l2 ->
    exists a b, l = a ++ b /\ length a = length l1 /\ goes s a r /\ goes r b s' /\ at_of b = l2.
  Proof.
    induction l1 as [|x l1 IH]; intros s l s' r l2 G E; cbn [app] in E.
    - injection E as E1 E2. subst r l2. exists [], l. cbn. auto 10.
    - injection E as E0 E. destruct l as [|[[[c w] v] q] l]; cbn [at_of map] in E; [destruct l1; discriminate E|]. cbn [snd] in E.
      destruct G as (T & T' & G). destruct (IH q l s' r l2 G E) as (a & b & -> & L & Ga & Gb & Eb).
      exists ((c, w, v, q) :: a), b. cbn [app length goes]. rewrite L. auto 10.
  Qed.
  Definition count : nat := length (sts M) * length (sts N).
  Definition inside (s : pair) : Prop := In (fst s) (sts M) /\ In (snd s) (sts N).
  Lemma goes_in l : forall s s', goes s l s' -> inside s -> inside s' /\ forall x, In x (at_of l) -> inside x.
  Proof.
    induction l as [|[[[c w] v] r] l IH]; intros s s'; cbn [goes].
    - intros <- I. split; [exact I|]. intros x [].
    - intros (T & T' & G) [I J]. assert (K : inside r) by (split; eapply tr_in; eassumption).
      destruct (IH _ _ G K) as [K1 K2]. split; [exact K1|]. intros x [<-|H]; [exact K|apply K2, H].
  Qed.
  Lemma loop s l s' : inside s -> goes s l s' -> count <= length l ->
    exists a x b r, l = a ++ x ++ b /\ x <> [] /\ goes s a r /\ goes r x r /\ goes r b s'.
  Proof.
    intros IN G L.
    destruct (repetition (fun a b : pair => ltac:(decide equality; apply st_dec)) (s :: at_of l) (list_prod (sts M) (sts N))) as (r & l1 & l2 & l3 & E).
    - assert (K : forall x, In x (s :: at_of l) -> inside x) by (intros x [<-|H]; [exact IN|apply (goes_in _ _ _ G IN), H]).
      intros [a b] H. apply K in H as [H H']. apply in_prod; assumption.
    - pose proof (prod_length (sts M) (sts N)) as E. unfold count in L. unfold pair in *. rewrite E. cbn [length]. unfold at_of. rewrite map_length. apply le_n_S. exact L.
    - destruct (goes_at l1 s l s' r (l2 ++ r :: l3) G E) as (a & b & -> & _ & Ga & Gb & Eb).
      destruct (goes_at (r :: l2) r b s' r l3 Gb) as (x & b' & -> & Lx & Gx & Gb' & _); [cbn [app]; rewrite Eb; reflexivity|].
      exists a, x, b', r. repeat split; auto. intros ->. discriminate Lx.
  Qed.
End Two.
Arguments goes {M N}. Arguments reads {M N}. Arguments out1 {M N}. Arguments out2 {M N}.

(** Three agreements imply a fourth. *)
Lemma fourth (a1 b1 c1 d1 e1 a2 b2 c2 d2 e2 : str) :
  a1 ++ c1 ++ e1 = a2 ++ c2 ++ e2 -> a1 ++ b1 ++ c1 ++ e1 = a2 ++ b2 ++ c2 ++ e2 ->
  a1 ++ c1 ++ d1 ++ e1 = a2 ++ c2 ++ d2 ++ e2 ->
  a1 ++ b1 ++ c1 ++ d1 ++ e1 = a2 ++ b2 ++ c2 ++ d2 ++ e2.
Proof.
  assert (G : forall a r b1 c1 d1 e1 b2 c2 d2 e2 : str,
    a ++ c1 ++ e1 = (a ++ r) ++ c2 ++ e2 -> a ++ b1 ++ c1 ++ e1 = (a ++ r) ++ b2 ++ c2 ++ e2 ->
    a ++ c1 ++ d1 ++ e1 = (a ++ r) ++ c2 ++ d2 ++ e2 ->
    a ++ b1 ++ c1 ++ d1 ++ e1 = (a ++ r) ++ b2 ++ c2 ++ d2 ++ e2).
  { clear. intros a r b1 c1 d1 e1 b2 c2 d2 e2 H1 H2 H3. rewrite <- !app_assoc in H1, H2, H3. apply app_inv_head in H1, H2, H3.
    assert (K : b1 ++ r = r ++ b2).
    { apply (app_inv_tail (c2 ++ e2)). rewrite <- !app_assoc. rewrite <- H1. exact H2. }
    rewrite <- app_assoc. f_equal. rewrite H3. rewrite (app_assoc b1), K, <- app_assoc. reflexivity. }
  intros H1 H2 H3.
  assert (P : (exists r, a2 = a1 ++ r) \/ exists r, a1 = a2 ++ r).
  { clear - H1. revert a2 H1. induction a1 as [|x a1 IH]; intros a2 E; [left; exists a2; reflexivity|].
    destruct a2 as [|y a2]; [right; exists (x :: a1); reflexivity|]. cbn [app] in E. injection E as -> E.
    destruct (IH a2 E) as [(r & ->)|(r & ->)]; [left|right]; exists r; reflexivity. }
  destruct P as [(r & ->)|(r & ->)].
  - apply G; assumption.
  - symmetry. apply G; symmetry; assumption.
Qed.

Theorem short_texts n m f g (P : char -> Prop) : sized n f -> sized m g ->
  (forall t, Forall P t -> length t < 2 * (n * m) -> f t = g t) -> forall t, Forall P t -> f t = g t.
Proof.
  intros (M & LM & CM) (N & LN & CN) H.
  assert (K : count M N <= n * m) by (apply Nat.mul_le_mono; assumption).
  assert (X : forall k t, length t < k -> Forall P t -> f t = g t).
  { induction k as [|k IH]; intros t L F; [lia|]. destruct (Nat.lt_ge_cases (length t) (2 * (n * m))) as [S|S]; [apply H; assumption|].
    destruct (acc_goes M N t (ini M) (ini N) (f t) (g t)) as (l & s' & q' & x1 & x2 & G & R & F1 & F2 & E1 & E2); [apply CM; reflexivity|apply CN; reflexivity|].
    assert (Ll : length l = length t) by (rewrite <- R; unfold reads; rewrite map_length; reflexivity).
    rewrite <- (firstn_skipn (n * m) l) in G. apply goes_app in G as (r & Ga & Gb).
    pose proof (firstn_skipn (n * m) l) as El. set (l1 := firstn (n * m) l) in *. set (l2 := skipn (n * m) l) in *.
    assert (L1 : length l1 = n * m) by (apply firstn_length_le; lia).
    assert (L2 : n * m <= length l2) by (unfold l2; rewrite skipn_length; lia).
    assert (I0 : inside M N (ini M, ini N)) by (split; apply ini_in).
    pose proof (proj1 (goes_in M N _ _ _ Ga I0)) as I1.
    destruct (loop M N _ _ _ I0 Ga ltac:(lia)) as (a & x & b & r1 & Ea & Nx & G1 & G2 & G3).
    destruct (loop M N _ _ _ I1 Gb ltac:(lia)) as (c & y & d & r2 & Eb & Ny & G4 & G5 & G6).
    rewrite Ea, Eb in El. clearbody l1 l2. subst l1 l2.
    assert (Y : forall z, goes (ini M, ini N) z (s', q') -> f (reads z) = out1 z ++ x1 /\ g (reads z) = out2 z ++ x2).
    { intros z Gz. destruct (goes_acc M N z _ _ x1 x2 Gz F1 F2) as [A B]. cbn [fst snd] in A, B. apply CM in A. apply CN in B. auto. }
    assert (Lx : 0 < length x) by (destruct x; [congruence|cbn; lia]). assert (Ly : 0 < length y) by (destruct y; [congruence|cbn; lia]).
    assert (T : t = reads a ++ reads x ++ reads b ++ reads c ++ reads y ++ reads d).
    { rewrite <- R, <- El. rewrite !reads_app, <- !app_assoc. reflexivity. }
    assert (FA : forall z, incl z t -> Forall P z) by (intros z I; rewrite Forall_forall in *; auto).
    assert (Z : forall z, goes (ini M, ini N) z (s', q') -> incl (reads z) t -> length z < length l -> out1 z ++ x1 = out2 z ++ x2).
    { intros z Gz I Lz. destruct (Y z Gz) as [<- <-]. apply IH; [unfold reads; rewrite map_length; apply (Nat.lt_le_trans _ _ _ Lz); rewrite Ll; lia|apply FA, I]. }
    assert (J : forall p, goes r1 p r2 -> True) by auto. clear J.
    assert (G7 : goes r1 (b ++ c) r2) by (apply goes_app; eauto).
    assert (Z1 : out1 (a ++ (b ++ c) ++ d) ++ x1 = out2 (a ++ (b ++ c) ++ d) ++ x2).
    { apply Z; [apply goes_app; exists r1; split; [exact G1|apply goes_app; eauto]| |rewrite <- El; rewrite !app_length; lia].
      rewrite T, !reads_app. intros h. rewrite !in_app_iff. tauto. }
    assert (Z2 : out1 (a ++ x ++ (b ++ c) ++ d) ++ x1 = out2 (a ++ x ++ (b ++ c) ++ d) ++ x2).
    { apply Z; [apply goes_app; exists r1; split; [exact G1|apply goes_app; exists r1; split; [exact G2|apply goes_app; eauto]]| |rewrite <- El; rewrite !app_length; lia].
      rewrite T, !reads_app. intros h. rewrite !in_app_iff. tauto. }
    assert (Z3 : out1 (a ++ (b ++ c) ++ y ++ d) ++ x1 = out2 (a ++ (b ++ c) ++ y ++ d) ++ x2).
    { apply Z; [apply goes_app; exists r1; split; [exact G1|apply goes_app; exists r2; split; [exact G7|apply goes_app; eauto]]| |rewrite <- El; rewrite !app_length; lia].
      rewrite T, !reads_app. intros h. rewrite !in_app_iff. tauto. }
    rewrite E1, E2, <- El. replace ((a ++ x ++ b) ++ c ++ y ++ d) with (a ++ x ++ (b ++ c) ++ y ++ d) by (rewrite <- !app_assoc; reflexivity).
    repeat rewrite ?out1_app, ?out2_app in Z1. repeat rewrite ?out1_app, ?out2_app in Z2. repeat rewrite ?out1_app, ?out2_app in Z3. repeat rewrite ?out1_app, ?out2_app.
    repeat rewrite <- app_assoc in *.
    pose proof (fourth (out1 a) (out1 x) (out1 b ++ out1 c) (out1 y) (out1 d ++ x1) (out2 a) (out2 x) (out2 b ++ out2 c) (out2 y) (out2 d ++ x2)) as Q.
    rewrite <- !app_assoc in Q. apply Q; assumption. }
  intros t. apply (X (S (length t))). lia.
Qed.
