(** Lemmas about changes of a text, for C97: modifiers as machines reading one character at a time. *)
From Verif Require Import Base StrOps Converter Dotted Reducer Eliminator Ligature Neologdn Spec BaseFacts SimpleFacts LigFacts NeoFacts NeoProps EditSpec.

Definition confined (k : nat) (f : str -> str) : Prop := forall m n x y, differ_in m n x y -> differ_in (m + k) (n + k) (f x) (f y).
Lemma confined_weaken k k' f : k <= k' -> confined k f -> confined k' f.
Proof. intros L H m n x y D. destruct (H m n x y D) as (p & u & v & s & E1 & E2 & Lu & Lv). exists p, u, v, s. repeat split; auto; lia. Qed.
Lemma confined_comp k k' f g : confined k f -> confined k' g -> confined (k + k') (fun s => g (f s)).
Proof. intros F G m n x y D. rewrite !Nat.add_assoc. apply G, F, D. Qed.
Lemma confined_id : confined 0 (fun s => s).
Proof. intros m n x y D. rewrite !Nat.add_0_r. exact D. Qed.
Lemma confined_ext k f g : (forall s, f s = g s) -> confined k f -> confined k g.
Proof. intros E F m n x y D. rewrite <- !E. apply F, D. Qed.
Lemma confined_hom (f : str -> str) : (forall a b, f (a ++ b) = f a ++ f b) -> (forall a, length (f a) <= length a) -> confined 0 f.
Proof.
  intros A L m n x y (p & u & v & s & -> & -> & Lu & Lv). exists (f p), (f u), (f v), (f s). rewrite !A. pose proof (L u). pose proof (L v). repeat split; lia.
Qed.
Lemma confined_map g : confined 0 (map g).
Proof. apply confined_hom; [apply map_app|]. intros a. rewrite map_length. lia. Qed.
Lemma confined_filter g : confined 0 (filter g).
Proof. apply confined_hom; [apply filter_app|]. induction a as [|x a IH]; cbn [filter]; [lia|]. destruct (g x); cbn [length]; lia. Qed.

Section Machine.
  Context {Q : Type} (run : Q -> str -> str) (step : Q -> char -> Q * str) (ok : Q -> Prop) (pend : Q -> nat) (k m : nat).
  Hypothesis run_step : forall q c s, ok q -> run q (c :: s) = snd (step q c) ++ run (fst (step q c)) s.
  Hypothesis ok_step : forall q c, ok q -> ok (fst (step q c)).
  Hypothesis pend_step : forall q c, ok q -> length (snd (step q c)) + pend (fst (step q c)) <= 1 + pend q.
  Hypothesis pend_max : forall q, ok q -> pend q <= m.
  Hypothesis sync : forall s q1 q2, ok q1 -> ok q2 -> exists a1 a2 r, run q1 s = a1 ++ r /\ run q2 s = a2 ++ r /\ length a1 <= k + pend q1 /\ length a2 <= k + pend q2.
  Lemma machine_run u : forall q, ok q -> exists out q', ok q' /\ length out + pend q' <= length u + pend q /\ forall s, run q (u ++ s) = out ++ run q' s.
  Proof.
    induction u as [|c u IH]; intros q H; [exists [], q; cbn [length app]; auto|].
    destruct (IH _ (ok_step q c H)) as (out & q' & H' & L & R). exists (snd (step q c) ++ out), q'. split; [exact H'|]. pose proof (pend_step q c H). rewrite app_length. cbn [length]. split; [lia|].
    intros s. cbn [app]. rewrite run_step, R, app_assoc by exact H. reflexivity.
  Qed.
  Lemma machine_confined q : ok q -> confined (m + k) (run q).
  Proof.
    intros H m' n' x y (p & u & v & s & -> & -> & Lu & Lv). destruct (machine_run p q H) as (P & q0 & H0 & _ & R0). rewrite !R0.
    destruct (machine_run u q0 H0) as (U & q1 & H1 & L1 & R1). destruct (machine_run v q0 H0) as (V & q2 & H2 & L2 & R2). rewrite R1, R2.
    destruct (sync s q1 q2 H1 H2) as (a1 & a2 & r & -> & -> & A1 & A2). exists P, (U ++ a1), (V ++ a2), r. rewrite !app_length, <- !app_assoc. pose proof (pend_max q0 H0).
    repeat split; lia.
  Qed.
End Machine.

Lemma confined_red c : confined 1 (red_modify c).
Proof.
  apply (confined_ext _ (red_rec c false)); [intros s; symmetry; apply red_modify_rec|].
  apply (machine_confined (red_rec c) (fun b x => if N.eqb c x then (true, if b then [] else [x]) else (false, [x])) (fun _ => True) (fun _ => 0) 1 0); auto.
  - intros b x s _. cbn [red_rec]. destruct (N.eqb c x); [destruct b|]; reflexivity.
  - intros b x _. destruct (N.eqb c x); [destruct b|]; cbn [fst snd length]; lia.
  - intros s b b' _ _. destruct s as [|x s]; [exists [], [], []; cbn [length]; repeat split; lia|]. cbn [red_rec]. destruct (N.eqb c x).
    + exists (if b then [] else [x]), (if b' then [] else [x]), (red_rec c true s). destruct b, b'; cbn [app length]; repeat split; lia.
    + exists [], [], (x :: red_rec c false s). cbn [length]. repeat split; lia.
Qed.
Definition gap (sp : bool) (c : char) : str := if sp then (if is_ascii_alphanumeric c then [SPACE] else []) else [].
Lemma confined_dot : confined 2 dot_modify.
Proof.
  apply (confined_ext _ (fun s => (fun q => dot_rec (fst q) (snd q)) (SPACE, false) s)); [intros s; symmetry; apply dot_modify_rec|].
  apply (machine_confined (fun q => dot_rec (fst q) (snd q)) (fun q c => if N.eqb c SPACE then ((c, if is_ascii_alphanumeric (fst q) then true else snd q), []) else ((c, false), gap (snd q) c ++ [c])) (fun _ => True) (fun q => if snd q then 1 else 0) 1 1); auto.
  - intros [p sp] c s _. cbn [dot_rec fst snd]. destruct (N.eqb c SPACE); [reflexivity|]. cbn [fst snd]. rewrite <- app_assoc. reflexivity.
  - intros [p sp] c _. cbn [fst snd]. destruct (N.eqb c SPACE); cbn [fst snd length]; [destruct (is_ascii_alphanumeric p), sp; lia|]. rewrite app_length. unfold gap. destruct sp; [destruct (is_ascii_alphanumeric c)|]; cbn [length]; lia.
  - intros [p []] _; cbn [snd]; lia.
  - assert (G : forall s p sp p' sp', exists a1 a2 r, dot_rec p sp s = a1 ++ r /\ dot_rec p' sp' s = a2 ++ r /\ length a1 <= 1 /\ length a2 <= 1).
    { induction s as [|c s IH]; intros p sp p' sp'; [exists [], [], []; cbn [length]; repeat split; lia|]. cbn [dot_rec]. destruct (N.eqb c SPACE); [apply IH|].
      exists (gap sp c), (gap sp' c), (c :: dot_rec c false s). unfold gap. destruct sp, sp', (is_ascii_alphanumeric c); cbn [length]; repeat split; lia. }
    intros s [p sp] [p' sp'] _ _. cbn [fst snd]. destruct (G s p sp p' sp') as (a1 & a2 & r & E1 & E2 & L1 & L2). exists a1, a2, r. repeat split; auto; lia.
Qed.

(** ** neologdn *)
Definition held (b : option char) : str := match b with Some a => [a] | None => [] end.
Section Neo.
  Context (long : char) (keep base : char -> bool) (mate : char -> char -> option char).
  Hypothesis long_alnum : is_ascii_alphanumeric long = false.
  Hypothesis long_space : N.eqb long SPACE = false.
  Hypothesis long_keep : keep long = true.
  Hypothesis long_base : base long = false.
  Hypothesis long_mate : forall a, mate a long = None.
  Hypothesis space_keep : keep SPACE = true.
  Hypothesis space_base : base SPACE = false.
  Hypothesis keep_alnum : forall c, keep c = false -> is_ascii_alphanumeric c = false.
  Hypothesis base_alnum : forall c, base c = true -> is_ascii_alphanumeric c = false.
  Hypothesis mate_base : forall a c t, mate a c = Some t -> base c = false /\ is_ascii_alphanumeric c = false.
  (** Composing, with a first character held back. *)
  Fixpoint compose (b : option char) (s : str) : str :=
    match s with
    | [] => held b
    | c :: r =>
        match (match b with Some a => mate a c | None => None end) with
        | Some t => t :: compose None r
        | None => held b ++ (if base c then compose (Some c) r else c :: compose None r)
        end
    end.
  Definition state : Type := char * bool * option char.
  Definition neo_run (q : state) (s : str) : str := let '(p, sp, b) := q in compose b (filter keep (dot_rec p sp (red_rec long (N.eqb long p) s))).
  Definition neo_step (q : state) (c : char) : state * str :=
    let '(p, sp, b) := q in
    if N.eqb long c then (if N.eqb long p then (q, []) else ((c, false, None), held b ++ [c]))
    else if N.eqb c SPACE then ((c, (if is_ascii_alphanumeric p then true else sp), b), [])
    else if negb (keep c) then ((c, false, b), [])
    else match (match b with Some a => mate a c | None => None end) with
         | Some t => ((c, false, None), [t])
         | None => if base c then ((c, false, Some c), held b) else ((c, false, None), held b ++ gap sp c ++ [c])
         end.
  Definition neo_ok (q : state) : Prop := let '(p, sp, b) := q in
    (sp = true -> b = None) /\ (is_ascii_alphanumeric p = true -> b = None /\ sp = false) /\ (long = p -> b = None /\ sp = false).
  Definition neo_pend (q : state) : nat := let '(p, sp, b) := q in length (held b) + (if sp then 1 else 0).
  Lemma neo_run_step q c s : neo_ok q -> neo_run q (c :: s) = snd (neo_step q c) ++ neo_run (fst (neo_step q c)) s.
  Proof.
    destruct q as [[p sp] b]. intros (I1 & I2 & I3). unfold neo_run, neo_step. cbn [red_rec]. destruct (N.eqb_spec long c) as [<-|NL].
    - destruct (N.eqb_spec long p) as [<-|NP].
      + cbn [fst snd app]. rewrite N.eqb_refl. reflexivity.
      + cbn [dot_rec]. rewrite long_space, long_alnum. cbn [fst snd]. rewrite N.eqb_refl. assert (E : (if sp then [] else [] : str) = []) by (destruct sp; reflexivity). rewrite E. cbn [app filter]. rewrite long_keep. cbn [compose].
        rewrite long_base. destruct b as [a|]; [rewrite long_mate|]; cbn [held app]; reflexivity.
    - cbn [dot_rec]. destruct (N.eqb_spec c SPACE) as [->|NS].
      + cbn [fst snd app]. destruct (N.eqb_spec long SPACE); [congruence|]. reflexivity.
      + destruct (keep c) eqn:K; cbn [negb].
        * destruct b as [a|].
          { assert (sp = false) as -> by (destruct sp; [discriminate (I1 eq_refl)|reflexivity]). cbn [app filter]. rewrite K. cbn [compose]. destruct (mate a c) as [t|]; cbn [fst snd app].
            - destruct (N.eqb_spec long c); [congruence|]. reflexivity.
            - destruct (base c); cbn [fst snd held app gap]; destruct (N.eqb_spec long c); try congruence; reflexivity. }
          { change (if sp then if is_ascii_alphanumeric c then [SPACE] else [] else []) with (gap sp c). destruct (base c) eqn:B; cbn [fst snd held app].
            - assert (gap sp c = []) as -> by (unfold gap; rewrite (base_alnum _ B); destruct sp; reflexivity). cbn [app filter]. rewrite K. cbn [compose]. rewrite B. cbn [held app]. destruct (N.eqb_spec long c); [congruence|]. reflexivity.
            - unfold gap. destruct (N.eqb_spec long c); [congruence|]. destruct sp; [destruct (is_ascii_alphanumeric c)|]; cbn [app filter]; rewrite ?space_keep, K; cbn [compose held app]; rewrite ?space_base; cbn [app compose held]; rewrite ?B; reflexivity. }
        * rewrite (keep_alnum _ K). assert (E : (if sp then [] else [] : str) = []) by (destruct sp; reflexivity). rewrite E. cbn [app filter]. rewrite K. cbn [fst snd app]. destruct (N.eqb_spec long c); [congruence|]. reflexivity.
  Qed.
  Lemma neo_ok_step q c : neo_ok q -> neo_ok (fst (neo_step q c)).
  Proof.
    destruct q as [[p sp] b]. intros (I1 & I2 & I3). unfold neo_step. destruct (N.eqb_spec long c) as [<-|NL]; [destruct (N.eqb_spec long p) as [<-|NP]|destruct (N.eqb_spec c SPACE) as [->|NS]; [|destruct (keep c) eqn:K; cbn [negb]]].
    - cbn [fst]. repeat split; auto; try apply I3; try apply I2; auto.
    - cbn [fst]. repeat split; auto.
    - cbn [fst]. split; [destruct (is_ascii_alphanumeric p); [intros _; apply I2; reflexivity|exact I1]|]. split; [intros E; vm_compute in E; discriminate E|]. intros E. rewrite <- E, N.eqb_refl in long_space. discriminate long_space.
    - destruct (match b with Some a => mate a c | None => None end); [cbn [fst]; repeat split; auto|]. destruct (base c) eqn:B; cbn [fst]; (split; [intros E; discriminate E || reflexivity|]); (split; [|intros E; contradiction]); intros A; [rewrite (base_alnum _ B) in A; discriminate A|auto].
    - cbn [fst]. split; [discriminate|]. split; [rewrite (keep_alnum _ K); discriminate|contradiction].
  Qed.
  Lemma neo_pend_step q c : neo_ok q -> length (snd (neo_step q c)) + neo_pend (fst (neo_step q c)) <= 1 + neo_pend q.
  Proof.
    destruct q as [[p sp] b]. intros (I1 & I2 & I3). unfold neo_step, neo_pend. destruct (N.eqb_spec long c) as [<-|NL]; [destruct (N.eqb_spec long p) as [<-|NP]|destruct (N.eqb_spec c SPACE) as [->|NS]; [|destruct (keep c) eqn:K; cbn [negb]]].
    - cbn [fst snd length]. lia.
    - cbn [fst snd held length]. rewrite app_length. cbn [length]. lia.
    - cbn [fst snd length]. destruct (is_ascii_alphanumeric p), sp; lia.
    - destruct (match b with Some a => mate a c | None => None end) as [t|] eqn:M; [destruct b; [|discriminate M]; cbn [fst snd held length]; lia|].
      destruct (base c); cbn [fst snd]; rewrite ?app_length; cbn [held length]; [lia|]. unfold gap. destruct sp, (is_ascii_alphanumeric c); cbn [length]; lia.
    - cbn [fst snd length]. lia.
  Qed.
  Lemma neo_pend_max q : neo_ok q -> neo_pend q <= 1.
  Proof. destruct q as [[p sp] b]. intros (I1 & _). unfold neo_pend. destruct sp; [rewrite (I1 eq_refl)|]; [|destruct b]; cbn [held length]; lia. Qed.
  Lemma neo_sync s : forall q1 q2, neo_ok q1 -> neo_ok q2 -> exists a1 a2 r, neo_run q1 s = a1 ++ r /\ neo_run q2 s = a2 ++ r /\
    length a1 <= 1 + length (held (snd q1)) /\ length a2 <= 1 + length (held (snd q2)).
  Proof.
    induction s as [|c s IH]; intros q1 q2 H1 H2.
    - destruct q1 as [[p1 sp1] b1], q2 as [[p2 sp2] b2]. exists (held b1), (held b2), []. cbn [neo_run red_rec dot_rec filter compose snd]. rewrite !app_nil_r. repeat split; lia.
    - rewrite !neo_run_step by assumption. pose proof (neo_ok_step q1 c H1) as H1'. pose proof (neo_ok_step q2 c H2) as H2'. specialize (IH _ _ H1' H2'). revert IH. clear H1' H2'.
      assert (F : forall q, neo_ok q -> (N.eqb long c = false /\ (N.eqb c SPACE = true \/ keep c = false) /\ snd (neo_step q c) = [] /\ snd (fst (neo_step q c)) = snd q) \/
                  (exists a z, snd (neo_step q c) = a ++ z /\ z = (if (N.eqb long c || base c || negb (is_ascii_alphanumeric c))%bool then [] else [c]) /\ length a <= 1 + length (held (snd q)) /\
                   fst (neo_step q c) = (c, false, if base c then Some c else None) /\ (N.eqb long c = true \/ (N.eqb c SPACE = false /\ keep c = true)))).
      { intros [[p sp] b] (I1 & I2 & I3). unfold neo_step. destruct (N.eqb_spec long c) as [<-|NL]; [destruct (N.eqb_spec long p) as [<-|NP]|destruct (N.eqb_spec c SPACE) as [->|NS]; [|destruct (keep c) eqn:K; cbn [negb]]].
        - right. exists [], []. destruct (I3 eq_refl) as [-> ->]. rewrite long_base. cbn [fst snd app length held orb]. repeat split; auto; lia.
        - right. exists (held b ++ [long]), []. rewrite long_base, app_length. cbn [fst snd orb length]. rewrite app_nil_r. repeat split; auto; lia.
        - left. cbn [fst snd]. auto.
        - right. destruct (match b with Some a => mate a c | None => None end) as [t|] eqn:M.
          + destruct b as [a|]; [|discriminate M]. destruct (mate_base _ _ _ M) as [-> ->]. rewrite orb_true_r. exists [t], []. cbn [fst snd app length held]. repeat split; auto; lia.
          + destruct (base c) eqn:B; cbn [orb].
            * exists (held b), []. cbn [fst snd]. rewrite app_nil_r. repeat split; auto; lia.
            * destruct (is_ascii_alphanumeric c) eqn:A; cbn [negb].
              -- exists (held b ++ gap sp c), [c]. cbn [fst snd]. rewrite app_length, <- app_assoc. unfold gap. rewrite A. destruct sp; cbn [length]; repeat split; auto; lia.
              -- exists (held b ++ [c]), []. cbn [fst snd]. rewrite app_length. unfold gap. rewrite A. destruct sp; cbn [length app]; rewrite ?app_nil_r; repeat split; auto; lia.
        - left. cbn [fst snd]. auto. }
      destruct (F q1 H1) as [(C1 & C2 & -> & ->)|(a1 & z1 & -> & Z1 & L1 & -> & C1)], (F q2 H2) as [(D1 & D2 & -> & ->)|(a2 & z2 & -> & Z2 & L2 & -> & D1)]; intros IH.
      + exact IH.
      + destruct D1 as [D1|[D1 D2]], C2 as [C2|C2]; congruence.
      + destruct C1 as [C1|[C1 C2]], D2 as [D2|D2]; congruence.
      + clear IH. rewrite <- Z1 in Z2. subst z2. exists a1, a2, (z1 ++ neo_run (c, false, if base c then Some c else None) s). rewrite <- !app_assoc. repeat split; assumption.
  Qed.
  Lemma neo_run_confined q : neo_ok q -> confined 2 (neo_run q).
  Proof.
    intros H. apply (machine_confined neo_run neo_step neo_ok neo_pend 1 1 neo_run_step neo_ok_step neo_pend_step neo_pend_max); [|exact H].
    intros s q1 q2 H1 H2. destruct (neo_sync s q1 q2 H1 H2) as (a1 & a2 & r & E1 & E2 & L1 & L2). exists a1, a2, r. destruct q1 as [[p1 sp1] b1], q2 as [[p2 sp2] b2]. unfold neo_pend. cbn [snd] in *. repeat split; auto; lia.
  Qed.
End Neo.

Section Compose.
  Context (base : char -> bool) (mate : char -> char -> option char).
  Hypothesis mate_iff : forall a m t, mate a m = Some t <-> composes a m t.
  Hypothesis base_of : forall a m t, composes a m t -> base a = true.
  Lemma compose_replaced s : replaced composition s (compose base mate None s) /\ forall a, replaced composition (a :: s) (compose base mate (Some a) s).
  Proof.
    assert (M : forall x c s k v, (mate x c = None) -> composition k v -> ~ prefix_of k (x :: c :: s)).
    { intros x c r k v E (a & m & t & -> & -> & C) (b & Q). injection Q as <- <- _. apply mate_iff in C. congruence. }
    assert (M' : forall k v x, composition k v -> ~ prefix_of k [x]) by (intros k v x (a & m & t & -> & -> & C) (b & Q); discriminate Q).
    induction s as [|c s [IH1 IH2]]; cbn [compose].
    - split; [constructor|]. intros a. cbn [held]. constructor; [intros k v C; apply (M' k v a C)|constructor].
    - assert (N : replaced composition (c :: s) (if base c then compose base mate (Some c) s else c :: compose base mate None s)).
      { destruct (base c) eqn:B; [apply IH2|]. constructor; [|exact IH1]. intros k v (a & m & t & -> & -> & C) (b & Q). injection Q as <- _. rewrite (base_of _ _ _ C) in B. discriminate B. }
      split; [exact N|]. intros a. destruct (mate a c) as [t|] eqn:E.
      + apply (rep_hit composition [a; c] [t]); [discriminate|exists a, c, t; split; [reflexivity|split; [reflexivity|apply mate_iff, E]]|exact IH1].
      + cbn [held app]. constructor; [|exact N]. intros k v. apply M, E.
  Qed.
End Compose.
Definition bases : list char := nodup N.eq_dec (flat_map (fun p : str * str => match fst p with a :: _ => [a] | [] => [] end) composes_pairs).
Definition is_base (c : char) : bool := existsb (N.eqb c) bases.
Definition mate_of (a m : char) : option char :=
  match find (fun p : str * str => match fst p with [x; y] => N.eqb x a && N.eqb y m | _ => false end)%bool composes_pairs with Some (_, [t]) => Some t | _ => None end.
Lemma is_base_iff a : is_base a = true <-> exists m t, composes a m t.
Proof.
  unfold is_base, bases. rewrite existsb_exists. split.
  - intros (x & H & E). apply N.eqb_eq in E. subst x. apply nodup_In, in_flat_map in H as ([k v] & H & I). apply composes_pairs_rel in H as (b & m & t & -> & -> & C). destruct I as [<-|[]]. eauto.
  - intros (m & t & C). exists a. split; [|apply N.eqb_refl]. apply nodup_In, in_flat_map. exists ([a; m], [t]). split; [apply composes_pairs_rel; eauto 6|left; reflexivity].
Qed.
Lemma mate_of_iff a m t : mate_of a m = Some t <-> composes a m t.
Proof.
  assert (D : forall t t', composes a m t -> composes a m t' -> t = t').
  { intros t1 t2 C1 C2. assert (H1 : In ([a; m], [t1]) neologdn_lig) by (apply lig_rel; eauto 6). assert (H2 : In ([a; m], [t2]) neologdn_lig) by (apply lig_rel; eauto 6).
    apply (hm_In_get str_eqb str_eqb_eq _ _ _ lig_nodup) in H1, H2. rewrite H1 in H2. injection H2. auto. }
  unfold mate_of. destruct (find _ composes_pairs) as [[k v]|] eqn:F.
  - apply find_some in F as [I E]. apply composes_pairs_rel in I as (a' & m' & t' & -> & -> & C). cbn [fst] in E. apply andb_true_iff in E as [E1 E2]. apply N.eqb_eq in E1, E2. subst a' m'.
    split; [intros [= <-]; exact C|intros C'; f_equal; apply D; assumption].
  - split; [discriminate|]. intros C. assert (I : In ([a; m], [t]) composes_pairs) by (apply composes_pairs_rel; eauto 6). pose proof (find_none _ _ F _ I) as Q. cbn [fst] in Q. rewrite !N.eqb_refl in Q. discriminate Q.
Qed.
Lemma composes_facts a m t : composes a m t -> entry_facts a m t.
Proof. intros C. destruct (lig_entry [a; m] [t]) as (a' & m' & t' & E1 & E2 & F); [apply lig_rel; eauto 6|]. injection E1 as <- <-. injection E2 as <-. exact F. Qed.
Lemma neo_text_run s : neo_text s = neo_run prolonged_mark not_tilde is_base mate_of (SPACE, false, None) (neo_conv_text s).
Proof.
  unfold neo_text. apply lig_comp. unfold neo_tilde, neo_pre. rewrite tilde_filter, dot_modify_rec, red_modify_rec. apply compose_replaced; [exact mate_of_iff|]. intros a m t C. apply is_base_iff. eauto.
Qed.
Lemma confined_neo : confined 2 neo_text.
Proof.
  apply (confined_ext _ (fun s => neo_run prolonged_mark not_tilde is_base mate_of (SPACE, false, None) (neo_conv_text s))); [intros s; symmetry; apply neo_text_run|].
  apply (confined_comp 0 2); [apply confined_map|].
  assert (NA : forall c, ~ alnum c -> is_ascii_alphanumeric c = false) by (intros c H; destruct (is_ascii_alphanumeric c) eqn:E; [apply is_alnum_spec in E; contradiction|reflexivity]).
  assert (T : forall c, not_tilde c = false -> In c tilde_variants) by (intros c H; unfold not_tilde in H; apply negb_false_iff, existsb_exists in H as (x & I & E); apply N.eqb_eq in E; subst x; exact I).
  apply neo_run_confined.
  - reflexivity.
  - reflexivity.
  - reflexivity.
  - vm_compute. reflexivity.
  - intros a. destruct (mate_of a prolonged_mark) as [t|] eqn:E; [|reflexivity]. apply mate_of_iff, composes_facts in E. destruct (ef_m_long _ _ _ E). reflexivity.
  - reflexivity.
  - vm_compute. reflexivity.
  - intros c H. apply T in H. vm_compute in H. repeat (destruct H as [<-|H]; [reflexivity|]). destruct H.
  - intros c H. apply is_base_iff in H as (m & t & C). apply NA, (ef_a_alnum _ _ _ (composes_facts _ _ _ C)).
  - intros a c t H. apply mate_of_iff, composes_facts in H. split; [|apply NA, (ef_m_alnum _ _ _ H)]. destruct (is_base c) eqn:B; [|reflexivity]. apply is_base_iff in B as (m & t' & C). apply composes_facts in C. pose proof (ef_a_mark _ _ _ C). pose proof (ef_m_mark _ _ _ H). congruence.
  - repeat split; try discriminate; auto.
Qed.
