(** Lemmas for C75: which modifiers can be exchanged. *)
From Verif Require Import Base BaseFacts Utf8 StrOps Position Converter Eliminator Reducer Dotted TrimMod ModifierKind ChanomaModel
  Spec ConverterFacts SimpleFacts ConverterProps SimpleProps PropsConverter PropsPipeline.

(** ** Each modifier as a function *)
Definition does (m : modifier) (f : str -> str) : Prop := forall s out, result [m] s out <-> out = f s.
Lemma does_of m f : (forall o s, normalize false o [m] s = Ok (f s)) -> does m f.
Proof.
  intros H s out. unfold result. split.
  - intros (o & E). rewrite H in E. congruence.
  - intros ->. exists no_order. apply H.
Qed.
Lemma does_conv cc : does (MConv cc) (map (conv1 cc)).
Proof. apply does_of. intros. apply normalize_conv. Qed.
Lemma does_elim el : does (MElim el) (filter (fun c => negb (mem N.eqb c el))).
Proof. apply does_of. intros. rewrite normalize_elim, elim_modify_filter. reflexivity. Qed.
Lemma does_red k : does (MRed k) (red_rec k false).
Proof. apply does_of. intros. rewrite normalize_red, red_modify_rec. reflexivity. Qed.
Lemma does_dot : does MDot (dot_rec SPACE false).
Proof. apply does_of. intros. rewrite normalize_dot, dot_modify_rec. reflexivity. Qed.
Lemma does_trim : does MTrim trim_modify.
Proof. apply does_of. intros. apply normalize_trim. Qed.
Lemma does_two m1 m2 f g : does m1 f -> does m2 g -> forall s out, result [m1; m2] s out <-> out = g (f s).
Proof.
  intros H1 H2 s out. change [m1; m2] with ([m1] ++ [m2]). rewrite result_app. split.
  - intros (mid & A & B). apply H1 in A. apply H2 in B. congruence.
  - intros ->. exists (f s). split; [apply H1|apply H2]; reflexivity.
Qed.
Lemma conv_single cc c d : result [MConv cc] [c] [d] <-> d = conv1 cc c.
Proof. rewrite (does_conv cc [c] [d]). cbn [map]. split; [intros E; injection E as ->; reflexivity|intros ->; reflexivity]. Qed.

(** ** Sufficient conditions *)
Lemma map_filter (f : char -> char) (q : char -> bool) s : Forall (fun c => q (f c) = q c) s -> filter q (map f s) = map f (filter q s).
Proof. induction 1 as [|c s H _ IH]; [reflexivity|]. cbn [map filter]. rewrite H, IH. destruct (q c); reflexivity. Qed.
Lemma map_red f k s : Forall (fun c => f c = k <-> c = k) s -> f k = k -> forall b, red_rec k b (map f s) = map f (red_rec k b s).
Proof.
  intros H Hk. induction H as [|c s H _ IH]; intros b; [reflexivity|]. cbn [map red_rec].
  destruct (N.eqb_spec k c) as [E|D].
  - subst c. rewrite Hk, N.eqb_refl. destruct b; [apply IH|]. cbn [map]. rewrite IH, Hk. reflexivity.
  - rewrite (proj2 (N.eqb_neq k (f c))); [|intros E; apply D; symmetry; apply H; symmetry; exact E]. cbn [map]. rewrite IH. reflexivity.
Qed.
Lemma map_repeat_fix (f : char -> char) c n : f c = c -> map f (repeat c n) = repeat c n.
Proof. intros H. induction n as [|n IH]; [reflexivity|]. cbn. rewrite H, IH. reflexivity. Qed.
Lemma hd_map f (s : str) : Forall (fun c => f c = space <-> c = space) s -> hd_error s <> Some space -> hd_error (map f s) <> Some space.
Proof. destruct 1 as [|c s H _]; cbn; [auto|]. intros N E. injection E as E. apply H in E. congruence. Qed.
Lemma map_trim f s : Forall (fun c => f c = space <-> c = space) s -> f space = space -> trim_modify (map f s) = map f (trim_modify s).
Proof.
  intros H Hf. destruct (trim_modify_trimmed s) as (T1 & T2 & a & b & E).
  apply (trimmed_unique (map f s)); [apply trim_modify_trimmed|]. set (out := trim_modify s) in *.
  assert (Ho : Forall (fun c => f c = space <-> c = space) out).
  { rewrite E, !Forall_app in H. tauto. }
  split; [apply hd_map; assumption|]. split.
  - rewrite <- map_rev. apply hd_map; [|exact T2]. apply Forall_rev, Ho.
  - exists a, b. rewrite E at 1. rewrite !map_app, !map_repeat_fix by exact Hf. reflexivity.
Qed.
Lemma map_dot f s : Forall (fun c => (f c = SPACE <-> c = SPACE) /\ is_ascii_alphanumeric (f c) = is_ascii_alphanumeric c) s -> f SPACE = SPACE ->
  forall p p' sp, is_ascii_alphanumeric p' = is_ascii_alphanumeric p -> dot_rec p' sp (map f s) = map f (dot_rec p sp s).
Proof.
  intros H Hf. induction H as [|c s [H1 H2] _ IH]; intros p p' sp Hp; [reflexivity|]. cbn [map dot_rec].
  destruct (N.eqb_spec c SPACE) as [->|D].
  - rewrite Hf, N.eqb_refl, Hp. apply IH. reflexivity.
  - rewrite (proj2 (N.eqb_neq (f c) SPACE)) by (intros E; apply D, H1, E). rewrite H2, map_app. cbn [map]. rewrite (IH c (f c) false H2).
    f_equal. destruct sp; [destruct (is_ascii_alphanumeric c)|]; cbn [map]; rewrite ?Hf; reflexivity.
Qed.
Lemma filter_comm {A} (p q : A -> bool) s : filter p (filter q s) = filter q (filter p s).
Proof.
  induction s as [|c s IH]; [reflexivity|]. cbn [filter]. destruct (p c) eqn:P, (q c) eqn:Q; cbn [filter]; rewrite ?P, ?Q, ?IH; reflexivity.
Qed.
Lemma red_red k j s : k <> j -> forall b1 b2, (b1 && b2 = false)%bool -> red_rec k b1 (red_rec j b2 s) = red_rec j b2 (red_rec k b1 s).
Proof.
  intros D. induction s as [|c s IH]; intros b1 b2 B; [reflexivity|]. cbn [red_rec].
  destruct (N.eqb_spec j c) as [Ej|Dj], (N.eqb_spec k c) as [Ek|Dk]; [congruence| | |].
  - destruct b2; cbn [red_rec].
    + destruct b1; [discriminate B|]. cbn [red_rec]. rewrite (proj2 (N.eqb_eq j c) Ej). apply IH. reflexivity.
    + rewrite (proj2 (N.eqb_eq j c) Ej), (proj2 (N.eqb_neq k c) Dk). f_equal. apply IH. reflexivity.
  - cbn [red_rec]. rewrite (proj2 (N.eqb_eq k c) Ek). destruct b1; cbn [red_rec].
    + destruct b2; [discriminate B|]. apply IH. reflexivity.
    + rewrite (proj2 (N.eqb_neq j c) Dj). f_equal. apply IH. reflexivity.
  - cbn [red_rec]. rewrite (proj2 (N.eqb_neq k c) Dk), (proj2 (N.eqb_neq j c) Dj). f_equal. apply IH. reflexivity.
Qed.
Section Removal.
  Variable q : char -> bool.
  Lemma filter_red k s : q k = false -> forall b, filter q (red_rec k b s) = filter q s.
  Proof.
    intros Q. induction s as [|c s IH]; intros b; [reflexivity|]. cbn [red_rec filter].
    destruct (N.eqb_spec k c) as [<-|D]; [rewrite Q; destruct b; [apply IH|]; cbn [filter]; rewrite Q; apply IH|].
    cbn [filter]. rewrite IH. reflexivity.
  Qed.
  Lemma red_absent k s : ~ In k s -> forall b, red_rec k b s = s.
  Proof.
    induction s as [|c s IH]; intros N b; [reflexivity|]. cbn [red_rec]. rewrite (proj2 (N.eqb_neq k c)).
    - rewrite IH; [reflexivity|]. intros I. apply N. right. exact I.
    - intros ->. apply N. left. reflexivity.
  Qed.
  Lemma filter_repeat k n : q k = false -> filter q (repeat k n) = [].
  Proof. intros Q. induction n as [|n IH]; [reflexivity|]. cbn. rewrite Q. exact IH. Qed.
  Lemma filter_trim s : q SPACE = false -> filter q (trim_modify s) = filter q s.
  Proof.
    intros Q. destruct (trim_modify_trimmed s) as (_ & _ & a & b & E). rewrite E at 2. rewrite !filter_app, !(filter_repeat SPACE) by exact Q.
    rewrite app_nil_r. reflexivity.
  Qed.
  Lemma filter_dot s : q SPACE = false -> forall p sp, filter q (dot_rec p sp s) = filter q s.
  Proof.
    intros Q. induction s as [|c s IH]; intros p sp; [reflexivity|]. cbn [dot_rec]. destruct (N.eqb_spec c SPACE) as [->|D].
    - cbn [filter]. rewrite Q. apply IH.
    - rewrite filter_app. cbn [filter]. rewrite IH.
      destruct sp; [destruct (is_ascii_alphanumeric c)|]; cbn [filter app]; rewrite ?Q; reflexivity.
  Qed.
  Lemma filter_absent k s : q k = false -> ~ In k (filter q s).
  Proof. intros Q I. apply filter_In in I as [_ I]. congruence. Qed.
End Removal.
Lemma trim_absent s : ~ In SPACE s -> trim_modify s = s.
Proof.
  intros N. apply (trimmed_unique s); [apply trim_modify_trimmed|]. split; [|split].
  - destruct s; cbn; [discriminate|]. intros [= ->]. apply N. left. reflexivity.
  - intros E. apply N. apply in_rev. destruct (rev s); [discriminate|]. injection E as ->. left. reflexivity.
  - exists 0, 0. cbn. rewrite app_nil_r. reflexivity.
Qed.
Lemma dot_absent s : ~ In SPACE s -> forall p, dot_rec p false s = s.
Proof.
  induction s as [|c s IH]; intros N p; [reflexivity|]. cbn [dot_rec]. rewrite (proj2 (N.eqb_neq c SPACE)).
  - cbn [app]. rewrite IH; [reflexivity|]. intros I. apply N. right. exact I.
  - intros ->. apply N. left. reflexivity.
Qed.
Lemma filter_all {A} (q : A -> bool) s : (forall c, q c = true) -> filter q s = s.
Proof. intros Q. induction s as [|c s IH]; [reflexivity|]. cbn. rewrite Q, IH. reflexivity. Qed.

(** Trim and reduction *)
Lemma red_snoc k x s : forall b, (exists r, red_rec k b (s ++ [x]) = r ++ [x]) \/ (b = true /\ x = k /\ red_rec k b (s ++ [x]) = []).
Proof.
  induction s as [|c s IH]; intros b; cbn [app red_rec].
  - destruct (N.eqb_spec k x) as [->|D]; [destruct b; [right; auto|left; exists []; reflexivity]|left; exists []; reflexivity].
  - destruct (N.eqb_spec k c) as [->|D].
    + destruct b.
      * apply IH.
      * left. destruct (IH true) as [(r & ->)|(_ & -> & ->)]; [exists (c :: r); reflexivity|exists []; reflexivity].
    + left. destruct (IH false) as [(r & ->)|(E & _)]; [exists (c :: r); reflexivity|discriminate].
Qed.
Lemma red_last k x s : exists r, red_rec k false (s ++ [x]) = r ++ [x].
Proof. destruct (red_snoc k x s false) as [H|(E & _)]; [exact H|discriminate]. Qed.
Lemma red_grow k x s : forall b, exists e, red_rec k b (s ++ [x]) = red_rec k b s ++ e /\ (e = [x] \/ e = []).
Proof.
  induction s as [|c s IH]; intros b; cbn [app red_rec].
  - destruct (N.eqb k x); [destruct b; [exists []|exists [x]]|exists [x]]; auto.
  - destruct (N.eqb k c); [destruct b; [apply IH|]|]; [destruct (IH true) as (e & -> & He)|destruct (IH false) as (e & -> & He)]; exists e; auto.
Qed.
Lemma trim_end_snoc s : trim_end_matches SPACE (s ++ [SPACE]) = trim_end_matches SPACE s.
Proof. unfold trim_end_matches. rewrite rev_app_distr. cbn. reflexivity. Qed.
Lemma trim_end_keep s x : x <> SPACE -> trim_end_matches SPACE (s ++ [x]) = s ++ [x].
Proof.
  intros D. unfold trim_end_matches. rewrite rev_app_distr. cbn [rev app trim_start_matches]. rewrite (proj2 (N.eqb_neq _ _)) by auto.
  cbn [rev]. rewrite rev_involutive. reflexivity.
Qed.
Lemma red_trim_end k s : trim_end_matches SPACE (red_rec k false s) = red_rec k false (trim_end_matches SPACE s).
Proof.
  induction s as [|x s IH] using rev_ind; [reflexivity|]. destruct (N.eq_dec x SPACE) as [->|D].
  - rewrite trim_end_snoc, <- IH. destruct (red_grow k SPACE s false) as (e & -> & [->| ->]); [apply trim_end_snoc|rewrite app_nil_r; reflexivity].
  - rewrite trim_end_keep by exact D. destruct (red_last k x s) as (r & ->). apply trim_end_keep, D.
Qed.
Lemma trim_start_keep s : hd_error s <> Some SPACE -> trim_start_matches SPACE s = s.
Proof. apply trim_start_fix. Qed.
Lemma red_hd k s : hd_error (red_rec k false s) = hd_error s.
Proof. destruct s as [|c s]; [reflexivity|]. cbn [red_rec]. destruct (N.eqb k c); reflexivity. Qed.
Lemma red_trim_start k s : trim_start_matches SPACE (red_rec k false s) = red_rec k false (trim_start_matches SPACE s).
Proof.
  destruct (N.eq_dec k SPACE) as [->|D].
  - destruct (trim_start_spec SPACE s) as (n & E & H). set (t := trim_start_matches SPACE s) in *. rewrite E.
    destruct n as [|n].
    + cbn [repeat app]. apply trim_start_keep. rewrite red_hd. exact H.
    + rewrite red_rec_repeat_pos by lia. rewrite (red_rec_other SPACE t H). cbn [trim_start_matches]. rewrite N.eqb_refl.
      apply trim_start_keep. rewrite red_hd. exact H.
  - induction s as [|c s IH]; [reflexivity|]. destruct (N.eq_dec c SPACE) as [->|Dc].
    + cbn [red_rec]. rewrite (proj2 (N.eqb_neq k SPACE) D). cbn [trim_start_matches]. rewrite N.eqb_refl. exact IH.
    + assert (H : hd_error (c :: s) <> Some SPACE) by (cbn; congruence). rewrite (trim_start_keep (c :: s) H).
      apply trim_start_keep. rewrite red_hd. exact H.
Qed.
Lemma red_trim k s : trim_modify (red_rec k false s) = red_rec k false (trim_modify s).
Proof. unfold trim_modify, trim_matches. rewrite red_trim_start. apply red_trim_end. Qed.

(** Dotted spaces and reduction of a letter or digit *)
Lemma red_dot k s : is_ascii_alphanumeric k = true ->
  (forall p b, (b = true -> p = k) -> dot_rec p false (red_rec k b s) = red_rec k b (dot_rec p false s)) /\
  (forall b, dot_rec SPACE true (red_rec k false s) = red_rec k b (dot_rec SPACE true s)).
Proof.
  intros K. assert (KS : k <> SPACE) by (intros ->; discriminate K).
  induction s as [|c s [IHa IHb]]; [split; reflexivity|].
  assert (IHc : dot_rec c false (red_rec k false s) = red_rec k false (dot_rec c false s)) by (apply IHa; discriminate).
  assert (IHk : dot_rec k false (red_rec k true s) = red_rec k true (dot_rec k false s)) by (apply IHa; reflexivity).
  split.
  - intros p b Hb. cbn [red_rec dot_rec]. destruct (N.eqb_spec k c) as [<-|D].
    + rewrite (proj2 (N.eqb_neq k SPACE) KS). cbn [app red_rec]. rewrite N.eqb_refl. destruct b.
      * rewrite (Hb eq_refl). exact IHk.
      * cbn [dot_rec]. rewrite (proj2 (N.eqb_neq k SPACE) KS). cbn [app]. rewrite IHk. reflexivity.
    + cbn [dot_rec]. destruct (N.eqb_spec c SPACE) as [->|DS].
      * destruct (is_ascii_alphanumeric p) eqn:P; [apply IHb|]. destruct b; [rewrite (Hb eq_refl), K in P; discriminate|]. apply IHc.
      * cbn [app red_rec]. rewrite (proj2 (N.eqb_neq k c) D), IHc. reflexivity.
  - intros b. cbn [red_rec dot_rec]. destruct (N.eqb_spec k c) as [<-|D].
    + cbn [dot_rec]. rewrite (proj2 (N.eqb_neq k SPACE) KS), K. cbn [app red_rec]. rewrite (proj2 (N.eqb_neq k SPACE) KS), N.eqb_refl, IHk. reflexivity.
    + cbn [dot_rec]. destruct (N.eqb_spec c SPACE) as [->|DS].
      * replace (is_ascii_alphanumeric SPACE) with false by reflexivity. apply IHb.
      * destruct (is_ascii_alphanumeric c); cbn [app red_rec]; rewrite ?(proj2 (N.eqb_neq k SPACE) KS), ?(proj2 (N.eqb_neq k c) D), IHc; reflexivity.
Qed.
