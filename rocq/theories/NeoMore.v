(** Lemmas about neologdn for C60-C63, C67. *)
From Verif Require Import Base BaseFacts StrOps Utf8 Dotted Neologdn ModifierKind ChanomaModel CharSpec Spec NeoSpec
  CharsetFacts SimpleFacts LigFacts TableFacts NeoFacts NeoProps.

Lemma composition_two k v : composition k v -> exists a m t, k = [a; m] /\ v = [t] /\ composes a m t.
Proof. exact (fun H => H). Qed.
Lemma neologdn_result_det s a b : neologdn_result s a -> neologdn_result s b -> a = b.
Proof. intros A B. apply neo_text_result in A. apply neo_text_result in B. congruence. Qed.
Lemma neologdn_result_total s : exists out, neologdn_result s out.
Proof. eexists. apply neo_text_result. reflexivity. Qed.

(** ** Characters playing no part *)
Section Kept.
  Variable f : char -> bool.
  Hypothesis Hf : forall c, f c = true -> untouched c.
  Lemma kept_pointwise s a : pointwise neologdn_rel s a -> filter f a = filter f s.
  Proof.
    induction 1 as [|c d s a H _ IH]; [reflexivity|]. cbn [filter]. rewrite IH. destruct H as [H|[-> _]]; [|reflexivity].
    destruct (f d) eqn:Ed. { destruct (Hf _ Ed) as (_ & N & _). destruct (N _ H). }
    destruct (f c) eqn:Ec. { destruct (Hf _ Ec) as (N & _). destruct (N _ H). }
    reflexivity.
  Qed.
  Lemma kept_repeat c n : f c = false -> filter f (repeat c n) = [].
  Proof. intros H. induction n as [|n IH]; [reflexivity|]. cbn [repeat filter]. rewrite H. exact IH. Qed.
  Lemma kept_collapsed s a : collapsed prolonged_mark s a -> filter f a = filter f s.
  Proof.
    assert (F : f prolonged_mark = false).
    { destruct (f prolonged_mark) eqn:E; [|reflexivity]. destruct (Hf _ E) as (_ & _ & N & _). congruence. }
    induction 1 as [|x s a H _ IH|n s a Hn Hs _ IH].
    - reflexivity.
    - cbn [filter]. rewrite IH. reflexivity.
    - rewrite filter_app, (kept_repeat _ _ F). cbn [filter app]. rewrite F. exact IH.
  Qed.
  Lemma kept_undotted p s a : undotted p s a -> filter f a = filter f s.
  Proof.
    assert (F : f space = false).
    { destruct (f space) eqn:E; [|reflexivity]. destruct (Hf _ E) as (_ & _ & _ & N & _). congruence. }
    induction 1 as [|p x s a H _ IH|p n s a Hn Hs H1 H2 _ IH|p n s a Hn Hs H1 _ IH].
    - reflexivity.
    - cbn [filter]. rewrite IH. reflexivity.
    - rewrite filter_app, (kept_repeat _ _ F). cbn [filter app]. rewrite F. exact IH.
    - rewrite filter_app, (kept_repeat _ _ F). exact IH.
  Qed.
  Lemma kept_tilde s : filter f (filter not_tilde s) = filter f s.
  Proof.
    induction s as [|x s IH]; [reflexivity|]. cbn [filter]. destruct (not_tilde x) eqn:E; cbn [filter]; rewrite IH; [reflexivity|].
    destruct (f x) eqn:Ef; [|reflexivity]. destruct (Hf _ Ef) as (_ & _ & _ & _ & N & _). apply not_tilde_true in N. congruence.
  Qed.
  Lemma kept_replaced s a : replaced composition s a -> filter f a = filter f s.
  Proof.
    induction 1 as [|k v s a Hk (x & m & t & -> & -> & C) _ IH|x s a H _ IH].
    - reflexivity.
    - assert (F : forall y, y = x \/ y = m \/ y = t -> f y = false).
      { intros y Hy. destruct (f y) eqn:E; [|reflexivity]. destruct (Hf _ E) as (_ & _ & _ & _ & _ & N).
        destruct (N _ _ _ C) as (N1 & N2 & N3). destruct Hy as [->|[->| ->]]; congruence. }
      cbn [app filter]. rewrite !F by auto. exact IH.
    - cbn [filter]. rewrite IH. reflexivity.
  Qed.
  Lemma kept_neo s out : neologdn_result s out -> filter f out = filter f s.
  Proof.
    intros (a & b & c & H1 & H2 & H3 & H4). rewrite (kept_replaced _ _ H4), kept_tilde, (kept_undotted _ _ _ H3), (kept_collapsed _ _ H2).
    apply kept_pointwise, H1.
  Qed.
End Kept.
Lemma count_filter c s : count_occ N.eq_dec s c = length (filter (N.eqb c) s).
Proof.
  induction s as [|x s IH]; [reflexivity|]. cbn [count_occ filter]. destruct (N.eq_dec x c) as [->|H].
  - rewrite N.eqb_refl. cbn [length]. rewrite IH. reflexivity.
  - destruct (N.eqb_spec c x) as [E|_]; [congruence|exact IH].
Qed.

(** ** Separators *)
Lemma collapsed_sep c x a a' b b' : x <> c -> collapsed c a a' -> collapsed c b b' -> collapsed c (a ++ x :: b) (a' ++ x :: b').
Proof.
  intros Hx Ha Hb. induction Ha as [|y s o H _ IH|n s o Hn Hs _ IH].
  - cbn. constructor; assumption.
  - cbn. constructor; assumption.
  - rewrite <- app_assoc. cbn [app]. constructor; [exact Hn| |exact IH].
    destruct s as [|y s]; cbn in *; congruence.
Qed.
Lemma undotted_context p q s out : (alnum_opt p <-> alnum_opt q) -> undotted p s out -> undotted q s out.
Proof.
  intros E H. destruct H as [|p x s a Hx H|p n s a Hn Hs H1 H2 H|p n s a Hn Hs H1 H].
  - constructor.
  - constructor; assumption.
  - constructor; tauto.
  - apply und_drop; tauto.
Qed.
Lemma undotted_sep x b b' : x <> space -> ~ alnum x -> undotted None b b' -> forall p a a', undotted p a a' ->
  undotted p (a ++ x :: b) (a' ++ x :: b').
Proof.
  intros Hx Hn Hb p a a' Ha.
  assert (Hb' : undotted (Some x) b b').
  { apply (undotted_context None); [|exact Hb]. split; intros (c & E & A); [discriminate|]. injection E as <-. contradiction. }
  induction Ha as [p|p y s o H _ IH|p n s o Hp Hs H1 H2 _ IH|p n s o Hp Hs H1 _ IH].
  - cbn. constructor; assumption.
  - cbn. constructor; assumption.
  - rewrite <- app_assoc. cbn [app]. destruct s as [|y s]; [destruct H2 as (c & E & _); discriminate|].
    constructor; assumption.
  - rewrite <- app_assoc. destruct s as [|y s].
    + apply und_drop; [exact Hp|cbn; congruence| |exact IH]. intros [_ (c & E & A)]. cbn in E. injection E as <-. contradiction.
    + apply und_drop; assumption.
Qed.
Lemma replaced_sep x b b' : (forall a m t, composes a m t -> x <> a /\ x <> m /\ x <> t) -> replaced composition b b' ->
  forall a a', replaced composition a a' -> replaced composition (a ++ x :: b) (a' ++ x :: b').
Proof.
  intros Hx Hb a a' Ha. induction Ha as [|k v s o Hk HR _ IH|y s o H _ IH].
  - cbn. apply rep_miss; [|exact Hb]. intros k v (a & m & t & -> & -> & C) (r & E). injection E as E _.
    destruct (Hx _ _ _ C). congruence.
  - rewrite <- !app_assoc. apply rep_hit; assumption.
  - cbn. apply rep_miss; [|exact IH]. intros k v C (r & E). apply (H k v C).
    destruct C as (a & m & t & -> & -> & C). destruct s as [|z s]; cbn in E.
    + injection E as -> E _. destruct (Hx _ _ _ C) as (_ & N & _). congruence.
    + injection E as -> -> _. exists s. reflexivity.
Qed.
(** ASCII letters and digits are results of conversion. *)
Lemma untouched_not_alnum c : untouched c -> ~ alnum c.
Proof.
  intros (_ & N & _) A. apply (N (c + 0xFEE0)%N). apply nr_preset.
  - destruct A as [A|[A|A]]; lia.
  - replace c with ((c + 0xFEE0) - 0xFEE0)%N at 2 by lia. apply pr_fullwidth. unfold fullwidth_ascii.
    destruct A as [A|[A|A]]; repeat split; lia.
Qed.
Lemma neo_sep x a a' b b' : untouched x -> neologdn_result a a' -> neologdn_result b b' -> neologdn_result (a ++ x :: b) (a' ++ x :: b').
Proof.
  intros U (a1 & a2 & a3 & A1 & A2 & A3 & A4) (b1 & b2 & b3 & B1 & B2 & B3 & B4).
  pose proof (untouched_not_alnum _ U) as Na. destruct U as (U1 & U2 & U3 & U4 & U5 & U6).
  exists (a1 ++ x :: b1), (a2 ++ x :: b2), (a3 ++ x :: b3). split.
  { apply Forall2_app; [exact A1|]. constructor; [right; auto|exact B1]. }
  split; [apply collapsed_sep; assumption|]. split; [apply undotted_sep; assumption|].
  rewrite filter_app. cbn [filter]. apply not_tilde_true in U5. rewrite U5. apply replaced_sep; assumption.
Qed.

Lemma map_repeat' {A B} (g : A -> B) x n : map g (repeat x n) = repeat (g x) n.
Proof. induction n as [|n IH]; [reflexivity|]. cbn. rewrite IH. reflexivity. Qed.
(** ** Renaming a character that plays no part *)
Section Renamed.
  Variable g : char -> char.
  Lemma collapsed_map c s o : (forall x, g x = c <-> x = c) -> collapsed c s o -> collapsed c (map g s) (map g o).
  Proof.
    intros Hg. assert (E : g c = c) by (apply Hg; reflexivity). induction 1 as [|x s o H _ IH|n s o Hn Hs _ IH].
    - constructor.
    - cbn. constructor; [rewrite Hg; exact H|exact IH].
    - rewrite map_app, map_repeat'. cbn [map]. rewrite E. constructor; [exact Hn| |exact IH].
      destruct s as [|y s]; cbn [map hd_error] in *; [discriminate|]. intros Q. apply Hs. f_equal. apply Hg. congruence.
  Qed.
  Lemma undotted_map p s o : (forall x, g x = space <-> x = space) -> (forall x, alnum (g x) <-> alnum x) ->
    undotted p s o -> undotted (option_map g p) (map g s) (map g o).
  Proof.
    intros Hg Ha. assert (E : g space = space) by (apply Hg; reflexivity).
    assert (Ao : forall p, alnum_opt (option_map g p) <-> alnum_opt p).
    { intros [y|]; cbn; split; intros (c & Q & A); try discriminate; injection Q as <-.
      - exists y. split; [reflexivity|]. apply Ha, A.
      - exists (g y). split; [reflexivity|]. apply Ha, A. }
    assert (Hd : forall s, hd_error (map g s) = option_map g (hd_error s)) by (intros [|y s']; reflexivity).
    assert (Ns : forall s, hd_error s <> Some space -> hd_error (map g s) <> Some space).
    { intros [|y s'] H; cbn [map hd_error] in *; [discriminate|]. intros Q. apply H. f_equal. apply Hg. congruence. }
    induction 1 as [p|p x s o H _ IH|p n s o Hn Hs H1 H2 _ IH|p n s o Hn Hs H1 _ IH].
    - constructor.
    - cbn. constructor; [rewrite Hg; exact H|exact IH].
    - rewrite map_app, map_repeat'. cbn [map]. rewrite E. cbn in IH. rewrite E in IH.
      constructor; [exact Hn|apply Ns, Hs|apply Ao, H1|rewrite Hd; apply Ao, H2|exact IH].
    - rewrite map_app, map_repeat'. rewrite E. cbn in IH. rewrite E in IH.
      apply und_drop; [exact Hn|apply Ns, Hs| |exact IH]. rewrite Hd, !Ao. exact H1.
  Qed.
  Lemma filter_map_not_tilde s : (forall x, not_tilde (g x) = not_tilde x) -> filter not_tilde (map g s) = map g (filter not_tilde s).
  Proof.
    intros H. induction s as [|x s IH]; [reflexivity|]. cbn [map filter]. rewrite H. destruct (not_tilde x); cbn [map]; rewrite IH; reflexivity.
  Qed.
  Lemma replaced_map s o : (forall a m t, composes a m t -> g a = a /\ g m = m /\ g t = t /\ forall x, (g x = a -> x = a) /\ (g x = m -> x = m)) ->
    replaced composition s o -> replaced composition (map g s) (map g o).
  Proof.
    intros Hg. induction 1 as [|k v s o Hk HR _ IH|x s o H _ IH].
    - constructor.
    - destruct HR as (a & m & t & -> & -> & C). rewrite !map_app. cbn [map]. destruct (Hg _ _ _ C) as (-> & -> & -> & _).
      apply rep_hit; [discriminate| |exact IH]. exists a, m, t. auto.
    - cbn. apply rep_miss; [|exact IH]. intros k v C (r & E). apply (H k v C). destruct C as (a & m & t & -> & -> & C).
      destruct (Hg _ _ _ C) as (_ & _ & _ & I). destruct s as [|y s]; cbn in E; [discriminate|].
      injection E as E1 E2 _. apply I in E1. apply I in E2. subst. exists s. reflexivity.
  Qed.
End Renamed.

(** ** Deciding [untouched] *)
Transparent NEO.
Definition neo_pairs : list (char * char) := neologdn_pairs.
Definition untouchedb (c : char) : bool :=
  negb (existsb (fun p => N.eqb c (fst p) || N.eqb c (snd p)) neo_pairs) &&
  negb (N.eqb c prolonged_mark) && negb (N.eqb c space) && not_tilde c &&
  negb (existsb (fun p => existsb (N.eqb c) (fst p) || existsb (N.eqb c) (snd p)) composes_pairs).
Opaque NEO.
Lemma untouchedb_sound c : untouchedb c = true -> untouched c.
Proof.
  unfold untouchedb. intros H. repeat match goal with H : _ && _ = true |- _ => apply andb_true_iff in H as [? ?] end.
  repeat match goal with H : negb _ = true |- _ => apply negb_true_iff in H end.
  assert (K : forall p, In p neo_pairs -> N.eqb c (fst p) || N.eqb c (snd p) = false).
  { intros p Hp. destruct (N.eqb c (fst p) || N.eqb c (snd p)) eqn:E; [|reflexivity].
    assert (existsb (fun p => N.eqb c (fst p) || N.eqb c (snd p)) neo_pairs = true) by (apply existsb_exists; exists p; auto). congruence. }
  assert (L : forall p, In p composes_pairs -> existsb (N.eqb c) (fst p) || existsb (N.eqb c) (snd p) = false).
  { intros p Hp. destruct (existsb (N.eqb c) (fst p) || existsb (N.eqb c) (snd p)) eqn:E; [|reflexivity].
    assert (existsb (fun p => existsb (N.eqb c) (fst p) || existsb (N.eqb c) (snd p)) composes_pairs = true) by (apply existsb_exists; exists p; auto).
    congruence. }
  split; [|split; [|split; [|split; [|split]]]].
  - intros t R. apply neologdn_pairs_rel in R. apply K in R. cbn in R. rewrite N.eqb_refl in R. discriminate.
  - intros b R. apply neologdn_pairs_rel in R. apply K in R. cbn in R. rewrite N.eqb_refl, orb_true_r in R. discriminate.
  - apply N.eqb_neq. assumption.
  - apply N.eqb_neq. assumption.
  - apply not_tilde_true. assumption.
  - intros a m t C. assert (Hp : In ([a; m], [t]) composes_pairs) by (apply composes_pairs_rel; exists a, m, t; auto).
    apply L in Hp. cbn in Hp. repeat split; intros ->; rewrite N.eqb_refl, ?orb_true_r in Hp; discriminate.
Qed.
Lemma untouched_count c : untouched c <-> forall s out, neologdn_result s out -> count_occ N.eq_dec out c = count_occ N.eq_dec s c.
Proof.
  split.
  - intros U s out H. rewrite !count_filter. f_equal. apply kept_neo; [|exact H]. intros x E. apply N.eqb_eq in E. congruence.
  - intros H. assert (H' : forall s, count_occ N.eq_dec (neo_text s) c = count_occ N.eq_dec s c).
    { intros s. apply H. apply neo_text_result. reflexivity. }
    clear H.
    assert (H1 : forall t, ~ neologdn_rel c t).
    { intros t R. specialize (H' [c]). rewrite (neo_single c t (or_introl R)) in H'. cbn [count_occ] in H'.
      destruct (N.eq_dec c c) as [_|N]; [|congruence]. destruct (N.eqb t space || existsb (N.eqb t) tilde_variants); cbn in H'; [discriminate|].
      destruct (N.eq_dec t c) as [->|_]; [|discriminate]. exact (neologdn_rel_final _ _ _ R R). }
    assert (H2 : c <> space /\ ~ In c tilde_variants).
    { pose proof (H' [c]) as Q. rewrite (neo_single c c (or_intror (conj eq_refl H1))) in Q. cbn [count_occ] in Q.
      destruct (N.eq_dec c c) as [_|N]; [|congruence]. destruct (N.eqb c space || existsb (N.eqb c) tilde_variants) eqn:E; [discriminate|].
      apply orb_false_iff in E as [E1 E2]. split; [apply N.eqb_neq, E1|]. apply not_tilde_true. unfold not_tilde. rewrite E2. reflexivity. }
    destruct H2 as [H2 H3]. split; [exact H1|].
    assert (H4 : c <> prolonged_mark).
    { intros ->. specialize (H' [prolonged_mark; prolonged_mark]).
      assert (E : neo_text [prolonged_mark; prolonged_mark] = [prolonged_mark]).
      { apply neo_text_result. exists [prolonged_mark; prolonged_mark], [prolonged_mark], [prolonged_mark].
        split; [apply conv_id; intros x t [<-|[<-|[]]]; apply H1|].
        split; [apply (col_run _ 2 [] []); [lia|discriminate|constructor]|].
        split; [apply und_char; [exact H2|constructor]|].
        cbn [filter]. apply not_tilde_true in H3. rewrite H3. apply rep_miss; [|constructor].
        intros k v (a & m & t & -> & -> & _) (r & Q). discriminate. }
      clear -H' E. rewrite E in H'. clear E. vm_compute in H'. discriminate H'. }
    split.
    { intros b R. assert (Hb : b <> c) by (intros ->; exact (H1 _ R)). specialize (H' [b]). rewrite (neo_single b c (or_introl R)) in H'.
      destruct (N.eqb_spec c space) as [E|_]; [contradiction|]. apply not_tilde_true in H3. unfold not_tilde in H3.
      destruct (existsb (N.eqb c) tilde_variants); [discriminate|]. cbn in H'.
      destruct (N.eq_dec c c); [|congruence]. destruct (N.eq_dec b c); [congruence|discriminate]. }
    split; [exact H4|]. split; [exact H2|]. split; [exact H3|].
    intros a m t C. pose proof (H' [a; m]) as Q. rewrite (neo_pair a m t C) in Q.
    assert (Hr : composition [a; m] [t]) by (exists a, m, t; auto).
    destruct (composition_facts _ _ Hr) as (a' & m' & t' & E & E' & F). injection E as <- <-. injection E' as <-.
    assert (T : ~ In t [a; m]). { apply (ef_t_key _ _ _ F [a; m] [t]). apply lig_rel. exists a, m, t. auto. }
    cbn [count_occ] in Q. destruct (N.eq_dec a c), (N.eq_dec m c), (N.eq_dec t c); subst; cbn in T; try discriminate Q; try tauto; repeat split; congruence.
Qed.

(** ** Weights *)
Fixpoint weight (w : char -> nat) (s : str) : nat := match s with [] => 0 | c :: r => w c + weight w r end.
Lemma weight_app w (a b : str) : weight w (a ++ b) = weight w a + weight w b.
Proof. induction a as [|x a IH]; [reflexivity|]. cbn. rewrite IH. lia. Qed.
Lemma weight_length s : weight (fun _ => 1) s = length s.
Proof. induction s as [|x s IH]; [reflexivity|]. cbn. rewrite IH. reflexivity. Qed.
Lemma weight_bytes s : weight (fun c => length (encode_char c)) s = length (encode s).
Proof. induction s as [|x s IH]; [reflexivity|]. cbn [weight encode flat_map]. rewrite app_length, IH. reflexivity. Qed.
Lemma weight_pointwise w (R : char -> char -> Prop) s a : (forall c t, R c t -> w t <= w c) -> pointwise R s a -> weight w a <= weight w s.
Proof.
  intros HR. induction 1 as [|c d s a H _ IH]; [reflexivity|]. cbn. assert (w d <= w c) by (destruct H as [H|[-> _]]; auto). lia.
Qed.
Lemma weight_collapsed w c s a : collapsed c s a -> weight w a <= weight w s.
Proof.
  induction 1 as [|x s a H _ IH|n s a Hn Hs _ IH]; [reflexivity|cbn; lia|].
  destruct n as [|n]; [lia|]. change (weight w (c :: a) <= weight w (repeat c (S n) ++ s)). rewrite (weight_app w (repeat c (S n)) s). cbn. lia.
Qed.
Lemma weight_undotted w p s a : undotted p s a -> weight w a <= weight w s.
Proof.
  induction 1 as [|p x s a H _ IH|p n s a Hn Hs H1 H2 _ IH|p n s a Hn Hs H1 _ IH]; [reflexivity|cbn; lia| |].
  - destruct n as [|n]; [lia|]. rewrite (weight_app w (repeat space (S n)) s). cbn. lia.
  - rewrite (weight_app w (repeat space n) s). lia.
Qed.
Lemma weight_filter w f s : weight w (filter f s) <= weight w s.
Proof. induction s as [|x s IH]; [reflexivity|]. cbn. destruct (f x); cbn; lia. Qed.
Lemma weight_replaced w s a : (forall x m t, composes x m t -> w t <= w x + w m) -> replaced composition s a -> weight w a <= weight w s.
Proof.
  intros HR. induction 1 as [|k v s a Hk (x & m & t & -> & -> & C) _ IH|x s a H _ IH]; [reflexivity| |cbn; lia].
  apply HR in C. cbn. lia.
Qed.
Lemma weight_neo w s out : (forall c t, neologdn_rel c t -> w t <= w c) -> (forall x m t, composes x m t -> w t <= w x + w m) ->
  neologdn_result s out -> weight w out <= weight w s.
Proof.
  intros H1 H2 (a & b & c & A & B & C & D). apply (weight_pointwise w _ _ _ H1) in A. apply (weight_collapsed w) in B.
  apply (weight_undotted w) in C. apply (weight_replaced w _ _ H2) in D. pose proof (weight_filter w not_tilde c). lia.
Qed.
Lemma neo_bytes_pairs : forallb (fun p => Nat.leb (length (encode_char (snd p))) (length (encode_char (fst p)))) neologdn_pairs = true.
Proof. vm_compute. reflexivity. Qed.
Lemma preset_bytes_pairs : forallb (fun p => Nat.leb (length (encode_char (snd p))) (length (encode_char (fst p)))) preset_pairs = true.
Proof. vm_compute. reflexivity. Qed.
Lemma composes_bytes_pairs : forallb (fun p : str * str => Nat.leb (length (encode (snd p))) (length (encode (fst p)))) composes_pairs = true.
Proof. vm_compute. reflexivity. Qed.
Lemma neo_bytes c t : neologdn_rel c t -> length (encode_char t) <= length (encode_char c).
Proof.
  intros H. apply neologdn_pairs_rel in H. pose proof neo_bytes_pairs as F. rewrite forallb_forall in F. apply F in H. apply Nat.leb_le, H.
Qed.
Lemma preset_bytes c t : preset_rel c t -> length (encode_char t) <= length (encode_char c).
Proof.
  intros H. apply preset_pairs_rel in H. pose proof preset_bytes_pairs as F. rewrite forallb_forall in F. apply F in H. apply Nat.leb_le, H.
Qed.
Lemma composes_bytes a m t : composes a m t -> length (encode_char t) <= length (encode_char a) + length (encode_char m).
Proof.
  intros H. assert (Hp : In ([a; m], [t]) composes_pairs) by (apply composes_pairs_rel; exists a, m, t; auto).
  pose proof composes_bytes_pairs as F. rewrite forallb_forall in F. apply F in Hp. apply Nat.leb_le in Hp.
  cbn [fst snd encode flat_map] in Hp. rewrite !app_length in Hp. cbn [length] in Hp. lia.
Qed.

(** ** The full-width equals sign *)
Definition eqs (c : char) : char := if N.eqb c 0xFF1D then 0x3D%N else c.
Lemma eqs_pointwise s out : pointwise equals_sign s out <-> out = map eqs s.
Proof.
  unfold pointwise. revert out; induction s as [|c s IH]; intros out; cbn [map].
  - split; [intros H; inversion H; reflexivity|intros ->; constructor].
  - split.
    + intros H. inversion H as [|x d l l' Hc Hl]; subst. f_equal; [|apply IH, Hl]. unfold eqs. destruct (N.eqb_spec c 0xFF1D) as [->|N].
      * destruct Hc as [[_ ->]|[_ Hn]]; [reflexivity|]. destruct (Hn 0x3D%N). split; reflexivity.
      * destruct Hc as [[E _]|[-> _]]; [contradiction|reflexivity].
    + intros ->. constructor; [|apply IH; reflexivity]. unfold eqs. destruct (N.eqb_spec c 0xFF1D) as [->|N].
      * left. split; reflexivity.
      * right. split; [reflexivity|]. intros t [E _]. contradiction.
Qed.
Lemma untouched_eq : untouched 0x3D%N /\ untouched 0xFF1D%N.
Proof. split; apply untouchedb_sound; vm_compute; reflexivity. Qed.
Lemma eqs_id c : c <> 0xFF1D%N -> eqs c = c.
Proof. intros H. unfold eqs. destruct (N.eqb_spec c 0xFF1D); [contradiction|reflexivity]. Qed.
Lemma eqs_iff x y : y <> 0x3D%N -> y <> 0xFF1D%N -> (eqs x = y <-> x = y).
Proof.
  intros H1 H2. unfold eqs. destruct (N.eqb_spec x 0xFF1D) as [->|N]; [|reflexivity]. split; intros E; congruence.
Qed.
Lemma neo_eqs s out : neologdn_result s out -> neologdn_result (map eqs s) (map eqs out).
Proof.
  intros (a & b & c & A & B & C & D). destruct untouched_eq as [(U1 & U2 & U3 & U4 & U5 & U6) (V1 & V2 & V3 & V4 & V5 & V6)].
  exists (map eqs a), (map eqs b), (map eqs c). split; [|split; [|split]].
  - clear -A U1 V1 V2. induction A as [|x y s a H _ IH]; [constructor|]. cbn [map]. constructor; [|exact IH].
    destruct H as [H|[-> H]].
    + rewrite !eqs_id; [left; exact H| |]; intros ->; [exact (V2 _ H)|exact (V1 _ H)].
    + unfold eqs. destruct (N.eqb_spec x 0xFF1D); right; auto.
  - apply collapsed_map; [|exact B]. intros x. apply eqs_iff; discriminate.
  - change (@None char) with (option_map eqs None). apply undotted_map; [| |exact C].
    + intros x. apply eqs_iff; discriminate.
    + intros x. unfold eqs. destruct (N.eqb_spec x 0xFF1D) as [->|_]; [|reflexivity]. unfold alnum. lia.
  - rewrite filter_map_not_tilde.
    + apply replaced_map; [|exact D]. intros x m t K. destruct (U6 _ _ _ K) as (P1 & P2 & P3), (V6 _ _ _ K) as (Q1 & Q2 & Q3).
      rewrite !eqs_id by congruence. split; [reflexivity|]. split; [reflexivity|]. split; [reflexivity|].
      intros y. rewrite !eqs_iff by congruence. tauto.
    + intros x. unfold eqs. destruct (N.eqb_spec x 0xFF1D) as [->|_]; reflexivity.
Qed.
(** The preset is the conversion stage of neologdn and the equals sign. *)
Lemma preset_split c t : preset_rel c t -> neologdn_rel c t \/ equals_sign c t.
Proof.
  intros H. destruct (N.eq_dec c 0xFF1D) as [->|N]; [right|left; apply nr_preset; assumption].
  split; [reflexivity|]. apply PRESET_get in H. rewrite (proj2 (PRESET_get 0xFF1D%N 0x3D%N)) in H; [congruence|].
  apply (pr_fullwidth 0xFF1D%N). repeat split; discriminate.
Qed.
Lemma equals_preset : preset_rel 0xFF1D%N 0x3D%N.
Proof. apply (pr_fullwidth 0xFF1D%N). repeat split; discriminate. Qed.
Lemma neo_rel_det c t u : neologdn_rel c t -> neologdn_rel c u -> t = u.
Proof. intros H H'. apply NEO_get in H. apply NEO_get in H'. congruence. Qed.
(** After the preset, the conversion stage of neologdn has the same result as on the text with the equals sign replaced. *)
Lemma preset_stage s mid a : pointwise preset_rel s mid -> pointwise neologdn_rel mid a -> pointwise neologdn_rel (map eqs s) a.
Proof.
  intros A. revert a. destruct untouched_eq as [(U1 & _) (V1 & _)]. induction A as [|c d s mid H _ IH]; intros a B; inversion B as [|x e l l' He Hl]; subst; cbn [map]; constructor; [|apply IH, Hl].
  destruct H as [H|[-> H]].
  - destruct (preset_split _ _ H) as [R|[-> ->]].
    + destruct He as [He|[-> _]]; [destruct (neologdn_rel_final _ _ _ R He)|]. rewrite eqs_id by (intros ->; exact (V1 _ R)). left. exact R.
    + change (eqs 0xFF1D%N) with 0x3D%N. exact He.
  - rewrite eqs_id by (intros ->; exact (H _ equals_preset)). exact He.
Qed.
Lemma pointwise_total s : exists a, pointwise preset_rel s a.
Proof. eexists. apply conv1_rel, PRESET_get. Qed.
Lemma preset_det s a b : pointwise preset_rel s a -> pointwise preset_rel s b -> a = b.
Proof. intros A B. apply (conv1_rel_unique _ _ PRESET_get) in A. apply (conv1_rel_unique _ _ PRESET_get) in B. congruence. Qed.
Lemma preset_then_neo s out : (exists mid, pointwise preset_rel s mid /\ neologdn_result mid out) <-> neologdn_result (map eqs s) out.
Proof.
  assert (F : forall mid o, pointwise preset_rel s mid -> neologdn_result mid o -> neologdn_result (map eqs s) o).
  { intros mid o A (a & b & c & H1 & H2). exists a, b, c. split; [|exact H2]. exact (preset_stage _ _ _ A H1). }
  split.
  - intros (mid & A & B). exact (F _ _ A B).
  - intros H. destruct (pointwise_total s) as (mid & A). exists mid. split; [exact A|].
    destruct (neologdn_result_total mid) as (o & B). rewrite (neologdn_result_det _ _ _ H (F _ _ A B)). exact B.
Qed.
(** On a result of neologdn the preset only changes the equals sign. *)
Lemma preset_on_shape s : (forall c t, In c s -> ~ neologdn_rel c t) -> pointwise preset_rel s (map eqs s).
Proof.
  intros H. induction s as [|c s IH]; cbn [map]; constructor; [|apply IH; intros x t Hx; apply H; right; exact Hx].
  destruct (N.eq_dec c 0xFF1D) as [->|N]; [left; exact equals_preset|]. rewrite eqs_id by exact N.
  right. split; [reflexivity|]. intros t R. destruct (preset_split _ _ R) as [R'|[E _]]; [|contradiction].
  exact (H c t (or_introl eq_refl) R').
Qed.
Lemma neo_then_preset s out : (exists mid, neologdn_result s mid /\ pointwise preset_rel mid out) <-> neologdn_result (map eqs s) out.
Proof.
  assert (F : forall mid o, neologdn_result s mid -> pointwise preset_rel mid o -> o = map eqs mid).
  { intros mid o A B. apply neo_text_result in A. pose proof (neo_shape s) as (Sh & _). rewrite A in Sh.
    exact (preset_det _ _ _ B (preset_on_shape _ Sh)). }
  split.
  - intros (mid & A & B). rewrite (F _ _ A B). apply neo_eqs, A.
  - intros H. destruct (neologdn_result_total s) as (mid & A). exists mid. split; [exact A|].
    rewrite (neologdn_result_det _ _ _ H (neo_eqs _ _ A)). apply preset_on_shape. apply neo_text_result in A.
    pose proof (neo_shape s) as (Sh & _). rewrite A in Sh. exact Sh.
Qed.

(** ** ASCII *)
Lemma ascii_not_key : forallb (fun p => N.leb 0x80 (fst p)) preset_pairs && forallb (fun p => N.leb 0x80 (fst p)) neologdn_pairs = true.
Proof. vm_compute. reflexivity. Qed.
Lemma ascii_preset c t : (c < 0x80)%N -> ~ preset_rel c t.
Proof.
  intros Hc H. apply preset_pairs_rel in H. pose proof ascii_not_key as F. apply andb_true_iff in F as [F _].
  rewrite forallb_forall in F. apply F in H. apply N.leb_le in H. cbn in H. lia.
Qed.
Lemma ascii_neo c t : (c < 0x80)%N -> ~ neologdn_rel c t.
Proof.
  intros Hc H. apply neologdn_pairs_rel in H. pose proof ascii_not_key as F. apply andb_true_iff in F as [_ F].
  rewrite forallb_forall in F. apply F in H. apply N.leb_le in H. cbn in H. lia.
Qed.
Lemma collapsed_none c s : ~ In c s -> collapsed c s s.
Proof.
  induction s as [|x s IH]; intros H; constructor; [intros ->; apply H; left; reflexivity|]. apply IH. intros Hx. apply H. right; exact Hx.
Qed.
Lemma ascii_mark_free : forallb (fun p : str * str => match fst p with [_; m] => N.leb 0x80 m | _ => false end) composes_pairs = true.
Proof. vm_compute. reflexivity. Qed.
Lemma neo_ascii s out : ascii s -> (neologdn_result s out <-> exists c, undotted None s c /\ out = filter (fun x => negb (N.eqb x 0x7E)) c).
Proof.
  intros H. assert (F : forall c, undotted None s c -> neologdn_result s (filter (fun x => negb (N.eqb x 0x7E)) c)).
  { intros c U. assert (Hc : forall x, In x c -> (x < 0x80)%N).
    { intros x Hx. unfold ascii in H. rewrite Forall_forall in H. apply H. exact (undotted_In _ _ _ U x Hx). }
    exists s, s, c. split; [apply conv_id; intros x t Hx; apply ascii_neo; unfold ascii in H; rewrite Forall_forall in H; apply H, Hx|].
    split; [apply collapsed_none; unfold ascii in H; rewrite Forall_forall in H; intros Hx; apply H in Hx; vm_compute in Hx; discriminate|].
    split; [exact U|].
    replace (filter not_tilde c) with (filter (fun x => negb (N.eqb x 0x7E)) c).
    - apply replaced_id. intros k v (a & m & t & -> & -> & C). split; [discriminate|]. intros (i & x & y & E & _).
      assert (Hm : In m c).
      { assert (Hm : In m (filter (fun x => negb (N.eqb x 0x7E)) c)) by (rewrite E; apply in_or_app; right; right; left; reflexivity).
        apply filter_In in Hm. apply Hm. }
      apply Hc in Hm. assert (Hp : In ([a; m], [t]) composes_pairs) by (apply composes_pairs_rel; exists a, m, t; auto).
      pose proof ascii_mark_free as G. rewrite forallb_forall in G. apply G in Hp. cbn in Hp. apply N.leb_le in Hp. lia.
    - apply filter_ext_in. intros x Hx. apply Hc in Hx. unfold not_tilde. f_equal. cbn [existsb tilde_variants].
      repeat match goal with |- context [N.eqb x ?k] => lazymatch k with 0x7E%N => fail | _ => rewrite (proj2 (N.eqb_neq x k)) by lia end end.
      rewrite orb_false_r. reflexivity. }
  split.
  - intros R. exists (dot_modify s). assert (U : undotted None s (dot_modify s)) by (apply dot_modify_spec; reflexivity).
    split; [exact U|]. exact (neologdn_result_det _ _ _ R (F _ U)).
  - intros (c & U & ->). exact (F _ U).
Qed.
