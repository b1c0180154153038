(** C113: pipelines of conversions, eliminations and run reductions, told apart by texts of three characters. *)
From Verif Require Import Base Utf8 StrOps Converter Eliminator Reducer Dotted TrimMod Ligature Neologdn ModifierKind ChanomaModel
  CharSpec Spec BaseFacts ConverterFacts ConverterProps SimpleFacts SimpleProps PropsConverter PropsPipeline
  CommProps PropsShort ThreeSpec.
From Coq Require Import Lia.

(** ** The pipeline as a function *)
Definition step (m : modifier) : str -> str :=
  match m with
  | MConv cc => map (conv1 cc)
  | MElim el => filter (fun c => negb (mem N.eqb c el))
  | MRed k => red_rec k false
  | _ => fun s => s
  end.
Definition run (c : chanoma) (s : str) : str := fold_left (fun s m => step m s) c s.
Lemma step_does m : sifter m -> does m (step m).
Proof. destruct 1; [apply does_conv|apply does_elim|apply does_red]. Qed.
Lemma result_nil s out : result [] s out <-> out = s.
Proof. unfold result, normalize; cbn; split; [intros (o & E); congruence|intros ->; exists no_order; reflexivity]. Qed.
Lemma run_does c : Forall sifter c -> forall s out, result c s out <-> out = run c s.
Proof.
  induction 1 as [|m c M _ IH]; intros s out; [apply result_nil|].
  change (m :: c) with ([m] ++ c). rewrite result_app. cbn [app run fold_left]. split.
  - intros (mid & A & B). apply (step_does m M) in A. apply IH in B. subst. reflexivity.
  - intros ->. exists (step m s). split; [apply (step_does m M); reflexivity|apply IH; reflexivity].
Qed.
Lemma run_snoc c m s : run (c ++ [m]) s = step m (run c s).
Proof. unfold run. rewrite fold_left_app. reflexivity. Qed.
Lemma run_app c d s : run (c ++ d) s = run d (run c s).
Proof. unfold run. apply fold_left_app. Qed.

(** ** The image of one character *)
Definition img1 (m : modifier) (x : char) : option char :=
  match m with MConv cc => Some (conv1 cc x) | MElim el => if mem N.eqb x el then None else Some x | _ => Some x end.
Definition img (c : chanoma) (x : char) : option char :=
  fold_left (fun o m => match o with Some y => img1 m y | None => None end) c (Some x).
Definition texted (o : option char) : str := match o with Some z => [z] | None => [] end.
Lemma img_snoc c m x : img (c ++ [m]) x = match img c x with Some y => img1 m y | None => None end.
Proof. unfold img. rewrite fold_left_app. reflexivity. Qed.
Lemma img_none b : fold_left (fun o m => match o with Some y => img1 m y | None => None end) b None = None.
Proof. induction b; [reflexivity|assumption]. Qed.
Lemma img_app a b x : img (a ++ b) x = match img a x with Some y => img b y | None => None end.
Proof. unfold img. rewrite fold_left_app. destruct (fold_left _ a (Some x)); [reflexivity|apply img_none]. Qed.
Lemma step_one m x : sifter m -> step m [x] = texted (img1 m x).
Proof.
  destruct 1; cbn [step img1 map filter]; [reflexivity| |].
  - destruct (mem N.eqb x el); reflexivity.
  - cbn [red_rec]. destruct (N.eqb k x); reflexivity.
Qed.
Lemma step_none m : sifter m -> step m [] = [].
Proof. destruct 1; reflexivity. Qed.
Lemma run_one c x : Forall sifter c -> run c [x] = texted (img c x).
Proof.
  induction c as [|m c IH] using rev_ind; [reflexivity|]. intros F. apply Forall_app in F as [F M]. inversion M as [|? ? Hm _]; subst.
  rewrite run_snoc, img_snoc, IH by exact F. destruct (img c x); cbn [texted]; [apply step_one, Hm|apply step_none, Hm].
Qed.
Lemma one_image c x z : Forall sifter c -> (result c [x] [z] <-> img c x = Some z).
Proof. intros F. rewrite (run_does c F), run_one by exact F. destruct (img c x); cbn; split; intros E; congruence. Qed.
Lemma one_gone c x : Forall sifter c -> (result c [x] [] <-> img c x = None).
Proof. intros F. rewrite (run_does c F), run_one by exact F. destruct (img c x); cbn; split; intros E; congruence. Qed.

(** ** What a reader remembers: the image of the last character still there.  [h] is the text before, last character first. *)
Fixpoint latest (a : chanoma) (h : str) : option char :=
  match h with [] => None | y :: r => match img a y with Some z => Some z | None => latest a r end end.
Definition same (o : option char) (k : char) : bool := match o with Some z => N.eqb z k | None => false end.
Lemma same_iff o k : same o k = true <-> o = Some k.
Proof. destruct o; cbn; [rewrite N.eqb_eq; split; congruence|split; discriminate]. Qed.
Definition drops (a : chanoma) (m : modifier) (h : str) (x : char) : bool :=
  match m with MRed k => same (img a x) k && same (latest a h) k | _ => false end.
Fixpoint dropped_from (a c : chanoma) (h : str) (x : char) : bool :=
  match c with [] => false | m :: r => drops a m h x || dropped_from (a ++ [m]) r h x end.
Definition dropped (c : chanoma) := dropped_from [] c.
Lemma dropped_from_snoc c m h x : forall a, dropped_from a (c ++ [m]) h x = (dropped_from a c h x || drops (a ++ c) m h x)%bool.
Proof.
  induction c as [|m' c IH]; intros a; cbn [dropped_from app]; [rewrite app_nil_r; apply Bool.orb_false_r|].
  rewrite IH, <- app_assoc. cbn [app]. apply Bool.orb_assoc.
Qed.
Lemma dropped_snoc c m h x : dropped (c ++ [m]) h x = (dropped c h x || drops c m h x)%bool.
Proof. apply dropped_from_snoc. Qed.
Lemma dropped_iff c h x : dropped c h x = true <-> exists a k b, c = a ++ MRed k :: b /\ img a x = Some k /\ latest a h = Some k.
Proof.
  induction c as [|m c IH] using rev_ind.
  - split; [discriminate|]. intros (a & k & b & E & _). destruct a; discriminate E.
  - rewrite dropped_snoc, Bool.orb_true_iff, IH. split.
    + intros [(a & k & b & -> & X & L)|D].
      * exists a, k, (b ++ [m]). rewrite <- app_assoc. auto.
      * destruct m; try discriminate D. cbn [drops] in D. apply Bool.andb_true_iff in D as [D1 D2]. apply same_iff in D1, D2.
        eexists c, _, []. repeat split; eassumption.
    + intros (a & k & b & E & X & L). destruct b as [|m' b] using rev_ind.
      * apply app_inj_tail in E as [-> ->]. right. cbn [drops]. apply Bool.andb_true_iff. split; apply same_iff; assumption.
      * left. rewrite app_comm_cons, app_assoc in E. apply app_inj_tail in E as [-> _]. exists a, k, b. auto.
Qed.
(** Where the last character has the image of [x], it keeps it. *)
Lemma latest_app a b h z w : latest a h = Some z -> img b z = Some w -> latest (a ++ b) h = Some w.
Proof.
  induction h as [|y h IH]; [discriminate|]. cbn [latest]. rewrite img_app. destruct (img a y) as [z'|]; [|exact IH].
  intros E W. injection E as ->. rewrite W. reflexivity.
Qed.
Lemma dropped_same c h x z : dropped c h x = true -> img c x = Some z -> latest c h = Some z.
Proof.
  intros D I. apply dropped_iff in D as (a & k & b & -> & X & L). rewrite img_app, X in I. exact (latest_app _ _ _ _ _ L I).
Qed.

(** ** The result, character by character *)
Fixpoint sift (c : chanoma) (h s : str) : str :=
  match s with
  | [] => []
  | x :: r => match img c x with
              | Some z => if dropped c h x then sift c (x :: h) r else z :: sift c (x :: h) r
              | None => sift c (x :: h) r
              end
  end.
Lemma sift_conv cc c s : forall h, sift (c ++ [MConv cc]) h s = map (conv1 cc) (sift c h s).
Proof.
  induction s as [|x s IH]; intros h; [reflexivity|]. cbn [sift]. rewrite img_snoc, dropped_snoc, IH. cbn [drops]. rewrite Bool.orb_false_r.
  destruct (img c x); cbn [img1]; [|reflexivity]. destruct (dropped c h x); reflexivity.
Qed.
Lemma sift_elim el c s : forall h, sift (c ++ [MElim el]) h s = filter (fun c => negb (mem N.eqb c el)) (sift c h s).
Proof.
  induction s as [|x s IH]; intros h; [reflexivity|]. cbn [sift]. rewrite img_snoc, dropped_snoc, IH. cbn [drops]. rewrite Bool.orb_false_r.
  destruct (img c x) as [z|]; cbn [img1]; [|reflexivity].
  destruct (dropped c h x); cbn [filter]; destruct (mem N.eqb z el); reflexivity.
Qed.
Lemma sift_red k c s : forall h, sift (c ++ [MRed k]) h s = red_rec k (same (latest c h) k) (sift c h s).
Proof.
  induction s as [|x s IH]; intros h; [reflexivity|]. cbn [sift]. rewrite img_snoc, dropped_snoc, IH. cbn [drops latest].
  destruct (img c x) as [z|] eqn:I; cbn [img1]; [|reflexivity].
  destruct (dropped c h x) eqn:D; cbn [orb].
  - rewrite (dropped_same _ _ _ _ D I). reflexivity.
  - cbn [same red_rec]. rewrite (N.eqb_sym z k). destruct (N.eqb k z); cbn [andb]; [|reflexivity].
    destruct (same (latest c h) k); reflexivity.
Qed.
Lemma sift_nil s : forall h, sift [] h s = s.
Proof. induction s as [|x s IH]; intros h; [reflexivity|]. cbn. rewrite IH. reflexivity. Qed.
Lemma run_sift c s : Forall sifter c -> run c s = sift c [] s.
Proof.
  induction c as [|m c IH] using rev_ind; [symmetry; apply sift_nil|]. intros F. apply Forall_app in F as [F M]. inversion M as [|? ? Hm _]; subst.
  rewrite run_snoc, (IH F). destruct Hm; cbn [step]; [rewrite sift_conv|rewrite sift_elim|rewrite sift_red]; reflexivity.
Qed.

Lemma latest_iff a k h : latest a h = Some k <-> exists w y u, h = w ++ y :: u /\ img a y = Some k /\ forall v, In v w -> img a v = None.
Proof.
  induction h as [|x h IH]; cbn [latest].
  - split; [discriminate|]. intros (w & y & u & E & _). destruct w; discriminate E.
  - destruct (img a x) as [z|] eqn:I.
    + split.
      * intros E. exists [], x, h. split; [reflexivity|]. split; [congruence|intros v []].
      * intros (w & y & u & E & Y & N). destruct w as [|x' w]; injection E as -> ->; [congruence|]. rewrite (N x') in I by (left; reflexivity). discriminate.
    + rewrite IH. split.
      * intros (w & y & u & -> & Y & N). exists (x :: w), y, u. split; [reflexivity|]. split; [exact Y|]. intros v [<-|V]; [exact I|apply N, V].
      * intros (w & y & u & E & Y & N). destruct w as [|x' w]; injection E as -> ->; [congruence|]. exists w, y, u. split; [reflexivity|]. split; [exact Y|]. intros v V. apply N. right. exact V.
Qed.
Lemma left_out_iff c p x : Forall sifter c -> (left_out c p x <-> img c x = None \/ dropped c (rev p) x = true).
Proof.
  intros F. split.
  - intros [G|a k b u y w -> -> Y X W].
    + left. apply one_gone; assumption.
    + right. apply Forall_app in F as [F _]. apply dropped_iff. exists a, k, b. split; [reflexivity|].
      split; [apply one_image; assumption|]. apply latest_iff. exists (rev w), y, (rev u).
      split; [rewrite rev_app_distr; cbn [rev]; rewrite <- app_assoc; reflexivity|]. split; [apply one_image; assumption|].
      intros v V. apply one_gone; [exact F|]. apply W, in_rev, V.
  - intros [G|D]; [apply out_gone, one_gone; assumption|].
    apply dropped_iff in D as (a & k & b & E & X & L). apply latest_iff in L as (w & y & u & R & Y & W).
    assert (Fa : Forall sifter a) by (rewrite E in F; apply Forall_app in F; tauto).
    apply (out_merged c p x a k b (rev u) y (rev w)); [exact E| | | |].
    + rewrite <- (rev_involutive p), R, rev_app_distr. cbn [rev]. rewrite <- app_assoc. reflexivity.
    + apply one_image; assumption.
    + apply one_image; assumption.
    + intros v V. apply one_gone; [exact Fa|]. apply W, in_rev, V.
Qed.
Lemma sifted_sift c s : Forall sifter c -> forall p out, sifted c p s out <-> out = sift c (rev p) s.
Proof.
  intros F. induction s as [|x s IH]; intros p out.
  - split; [intros H; inversion H; reflexivity|]. intros ->. constructor.
  - cbn [sift]. replace (x :: rev p) with (rev (p ++ [x])) by (rewrite rev_app_distr; reflexivity). split.
    + intros H. inversion H as [|? ? ? ? L R|? ? z ? o L I R]; subst; apply IH in R; subst.
      * apply (left_out_iff c p x F) in L as [L|L]; [rewrite L; reflexivity|]. destruct (img c x); [rewrite L|]; reflexivity.
      * apply one_image in I; [|exact F]. rewrite I. destruct (dropped c (rev p) x) eqn:D; [|reflexivity].
        exfalso. apply L, left_out_iff; auto.
    + intros E. destruct (img c x) as [z|] eqn:I.
      * destruct (dropped c (rev p) x) eqn:D.
        -- apply sifted_out; [apply left_out_iff; auto|]. apply IH, E.
        -- subst out. apply sifted_kept; [|apply one_image; assumption|apply IH; reflexivity].
           intros L. apply left_out_iff in L as [L|L]; congruence.
      * apply sifted_out; [apply left_out_iff; auto|]. apply IH, E.
Qed.
Theorem C113_what_is_left : forall c s out, Forall sifter c -> (result c s out <-> sifted c [] s out).
Proof. intros c s out F. rewrite (run_does c F), (run_sift c s F), (sifted_sift c s F). reflexivity. Qed.
Print Assumptions C113_what_is_left.

(** ** Three characters are enough *)
Lemma part_length u t : part u t -> length u <= length t.
Proof. induction 1; cbn; lia. Qed.
Lemma part_refl t : part t t.
Proof. induction t; constructor; assumption. Qed.
Lemma part_none t : part [] t.
Proof. induction t; constructor; assumption. Qed.
Lemma part_app a b u v : part a u -> part b v -> part (a ++ b) (u ++ v).
Proof. induction 1; intros B; cbn [app]; [exact B|apply part_skip; auto|apply part_take; auto]. Qed.
Lemma part_one x t : In x t -> part [x] t.
Proof. induction t as [|y t IH]; [intros []|]. intros [->|I]; [apply part_take, part_none|apply part_skip, IH, I]. Qed.
Lemma img_mono a a' b x : a' = a ++ b -> img a x = None -> img a' x = None.
Proof. intros -> E. rewrite img_app, E. reflexivity. Qed.
(** Of two stages of a pipeline one is the earlier. *)
Lemma stage_order (a a' b b' : chanoma) : a ++ b = a' ++ b' -> (exists e, a' = a ++ e) \/ (exists e, a = a' ++ e).
Proof.
  revert a'. induction a as [|m a IH]; intros a' E; [left; exists a'; reflexivity|].
  destruct a' as [|m' a']; [right; exists (m :: a); reflexivity|]. injection E as -> E.
  destruct (IH _ E) as [(e & ->)|(e & ->)]; [left|right]; exists e; reflexivity.
Qed.
(** [x] merges into [y] across [w]. *)
Definition merges (c : chanoma) (y : char) (w : str) (x : char) : Prop :=
  exists a k b, c = a ++ MRed k :: b /\ img a x = Some k /\ img a y = Some k /\ forall v, In v w -> img a v = None.
Lemma merges_each c y x : forall w, w <> [] -> (forall v, In v w -> merges c y [v] x) -> merges c y w x.
Proof.
  induction w as [|v w IH]; [congruence|]. intros _ H. destruct w as [|v' w].
  - exact (H v (or_introl eq_refl)).
  - destruct (IH ltac:(discriminate) (fun u U => H u (or_intror U))) as (a & k & b & E & X & Y & W).
    destruct (H v (or_introl eq_refl)) as (a' & k' & b' & E' & X' & Y' & W'). rewrite E in E'.
    destruct (stage_order _ _ _ _ E') as [(e & Q)|(e & Q)].
    + exists a', k', b'. rewrite E. split; [exact E'|]. split; [exact X'|]. split; [exact Y'|]. intros u [<-|U]; [apply W'; left; reflexivity|].
      exact (img_mono _ _ _ _ Q (W u U)).
    + exists a, k, b. split; [exact E|]. split; [exact X|]. split; [exact Y|]. intros u [<-|U]; [|exact (W u U)].
      exact (img_mono _ _ _ _ Q (W' v (or_introl eq_refl))).
Qed.
Lemma merges_dropped c y w u x : merges c y w x -> dropped c (w ++ y :: u) x = true.
Proof.
  intros (a & k & b & E & X & Y & W). apply dropped_iff. exists a, k, b. split; [exact E|]. split; [exact X|]. apply latest_iff. exists w, y, u. auto.
Qed.
Lemma dropped_merges c h x : dropped c h x = true -> exists w y u, h = w ++ y :: u /\ merges c y w x.
Proof.
  intros D. apply dropped_iff in D as (a & k & b & E & X & L). apply latest_iff in L as (w & y & u & -> & Y & W).
  exists w, y, u. split; [reflexivity|]. exists a, k, b. auto.
Qed.
Lemma no_history c x : dropped c [] x = false.
Proof. destruct (dropped c [] x) eqn:D; [|reflexivity]. apply dropped_merges in D as (w & y & u & E & _). destruct w; discriminate E. Qed.
Lemma sift_two c y x z : img c y = Some z -> img c x = Some z -> sift c [] [y; x] = if dropped c [y] x then [z] else [z; z].
Proof. intros Y X. cbn [sift]. rewrite Y, X, no_history. destruct (dropped c [y] x); reflexivity. Qed.
Lemma sift_three c y v x z : img c y = Some z -> img c x = Some z -> img c v = None -> sift c [] [y; v; x] = if dropped c [v; y] x then [z] else [z; z].
Proof. intros Y X V. cbn [sift]. rewrite Y, X, V, no_history. destruct (dropped c [v; y] x); reflexivity. Qed.
Lemma merges_image c y w x z : merges c y w x -> img c x = Some z -> img c y = Some z /\ forall v, In v w -> img c v = None.
Proof.
  intros (a & k & b & -> & X & Y & W) I. rewrite img_app, X in I. split; [rewrite img_app, Y; exact I|]. intros v V. rewrite img_app, (W v V). reflexivity.
Qed.

Section Two.
  Variables c d : chanoma.
  Variable P : str -> Prop.
  Hypothesis P_part : forall u t, part u t -> P t -> P u.
  Hypothesis short : forall u, P u -> length u <= 3 -> sift c [] u = sift d [] u.
  Lemma img_eq x : P [x] -> img c x = img d x.
  Proof.
    intros Hx. pose proof (short [x] Hx ltac:(cbn; lia)) as E. cbn [sift] in E. rewrite !no_history in E. destruct (img c x), (img d x); congruence.
  Qed.
  Lemma merges_two y x z : P [y; x] -> img c x = Some z -> merges c y [] x -> merges d y [] x.
  Proof.
    intros T I M. destruct (merges_image _ _ _ _ _ M I) as [J _].
    assert (Tx : P [x]) by (apply (P_part _ [y; x]); [apply part_skip, part_refl|exact T]).
    assert (Ty : P [y]) by (apply (P_part _ [y; x]); [apply part_take, part_skip, part_nil|exact T]).
    pose proof (short _ T ltac:(cbn; lia)) as E.
    rewrite (sift_two c y x z J I) in E. rewrite (img_eq x Tx) in I. rewrite (img_eq y Ty) in J. rewrite (sift_two d y x z J I) in E.
    change ([y]) with ([] ++ y :: []) in E at 1. rewrite (merges_dropped _ _ _ _ _ M) in E.
    destruct (dropped d [y] x) eqn:D; [|discriminate E]. apply dropped_merges in D as (w & y' & u & Q & M').
    destruct w as [|q w]; [injection Q as <- <-; exact M'|]. destruct w; discriminate Q.
  Qed.
  Lemma merges_three y v x z : P [y; v; x] -> img c x = Some z -> merges c y [v] x -> merges d y [v] x.
  Proof.
    intros T I M. destruct (merges_image _ _ _ _ _ M I) as [J V]. specialize (V v (or_introl eq_refl)).
    assert (Tx : P [x]) by (apply (P_part _ [y; v; x]); [do 2 apply part_skip; apply part_refl|exact T]).
    assert (Tv : P [v]) by (apply (P_part _ [y; v; x]); [apply part_skip, part_take, part_none|exact T]).
    assert (Ty : P [y]) by (apply (P_part _ [y; v; x]); [apply part_take, part_none|exact T]).
    pose proof (short _ T ltac:(cbn; lia)) as E.
    rewrite (sift_three c y v x z J I V) in E. rewrite (img_eq x Tx) in I. rewrite (img_eq y Ty) in J. rewrite (img_eq v Tv) in V.
    rewrite (sift_three d y v x z J I V) in E.
    change ([v; y]) with ([v] ++ y :: []) in E at 1. rewrite (merges_dropped _ _ _ _ _ M) in E.
    destruct (dropped d [v; y] x) eqn:D; [|discriminate E]. apply dropped_merges in D as (w & y' & u & Q & M').
    destruct w as [|q w].
    - injection Q as <- <-. destruct (merges_image _ _ _ _ _ M' I) as [Z _]. congruence.
    - destruct w as [|q' w]; [injection Q as <- <- _; exact M'|]. destruct w; discriminate Q.
  Qed.
  Lemma dropped_short h x z : P (rev h ++ [x]) -> img c x = Some z -> dropped c h x = true -> dropped d h x = true.
  Proof.
    intros T I D. apply dropped_merges in D as (w & y & u & -> & M). apply merges_dropped.
    rewrite rev_app_distr in T. cbn [rev] in T. rewrite <- !app_assoc in T.
    destruct w as [|v0 w0] eqn:Ew.
    - apply (merges_two y x z); [|exact I|exact M]. apply (P_part _ _ (part_app [] [y; x] _ _ (part_none (rev u)) (part_refl [y; x]))), T.
    - rewrite <- Ew in *. apply merges_each; [congruence|]. intros v V. apply (merges_three y v x z); [|exact I|].
      + refine (P_part _ _ _ T). apply (part_app [] [y; v; x]); [apply part_none|]. cbn [app]. apply part_take.
        apply (part_app [v] [x]); [apply part_one, in_rev; rewrite rev_involutive; exact V|apply part_refl].
      + destruct M as (a & k & b & E & X & Y & W). exists a, k, b. split; [exact E|]. split; [exact X|]. split; [exact Y|]. intros q [<-|[]]. apply W, V.
  Qed.
End Two.
Lemma sift_short c d (P : str -> Prop) : (forall u t, part u t -> P t -> P u) -> (forall u, P u -> length u <= 3 -> sift c [] u = sift d [] u) ->
  forall s h, P (rev h ++ s) -> sift c h s = sift d h s.
Proof.
  intros C S. induction s as [|x s IH]; intros h T; [reflexivity|]. cbn [sift].
  assert (Tx : P (rev h ++ [x])).
  { refine (C _ _ _ T). apply part_app; [apply part_refl|]. apply part_take, part_none. }
  assert (T1 : P [x]) by (refine (C _ _ _ Tx); apply (part_app [] [x]); [apply part_none|apply part_refl]).
  assert (Ts : P (rev (x :: h) ++ s)) by (cbn [rev]; rewrite <- app_assoc; exact T).
  rewrite (IH _ Ts). rewrite <- (img_eq c d P S x T1). destruct (img c x) as [z|] eqn:I; [|reflexivity].
  assert (S' : forall u, P u -> length u <= 3 -> sift d [] u = sift c [] u) by (intros u Pu L; symmetry; auto).
  pose proof (dropped_short c d P C S h x z Tx I) as A.
  pose proof (dropped_short d c P C S' h x z Tx ltac:(rewrite <- (img_eq c d P S x T1); exact I)) as B.
  destruct (dropped c h x), (dropped d h x); auto; [discriminate (A eq_refl)|discriminate (B eq_refl)].
Qed.
Lemma part_trans a b t : part a b -> part b t -> part a t.
Proof.
  intros A B. revert a A. induction B as [|x b t B IH|x b t B IH]; intros a A; [exact A|apply part_skip, IH, A|].
  inversion A; subst; [apply part_skip|apply part_take]; apply IH; assumption.
Qed.
Lemma agree_run c d t : Forall sifter c -> Forall sifter d -> (agree c d t <-> sift c [] t = sift d [] t).
Proof. intros C D. rewrite (agree_eq c d (run c) (run d) (run_does c C) (run_does d D)), !run_sift by assumption. reflexivity. Qed.
(** Two such pipelines that differ on a text differ on three (or fewer) of its characters. *)
Theorem C113_three : forall c d t, Forall sifter c -> Forall sifter d ->
  (forall u, part u t -> length u <= 3 -> agree c d u) -> agree c d t.
Proof.
  intros c d t C D H. apply (agree_run c d t C D). apply (sift_short c d (fun u => part u t)); [| |apply part_refl].
  - intros u v A B. exact (part_trans _ _ _ A B).
  - intros u U L. apply (agree_run c d u C D), H; assumption.
Qed.
Print Assumptions C113_three.

(** ** Finitely many texts *)
Lemma conv_unknown A cc x : speaks_of A (MConv cc) -> ~ In x A -> conv1 cc x = x.
Proof.
  intros S N. inversion S as [? H|? ?|? ?]; subst. unfold conv1. destruct (conv_get cc x) as [t|] eqn:E; [|reflexivity].
  exfalso. apply N. apply (H x t). unfold conv_get in E. apply (hm_get_In N.eqb N.eqb_eq) in E. exact E.
Qed.
Lemma red_unknown k x p q : x <> k -> forall b, red_rec k b (p ++ x :: q) = red_rec k b p ++ x :: red_rec k false q.
Proof.
  intros N. induction p as [|y p IH]; intros b; cbn [red_rec app].
  - rewrite (proj2 (N.eqb_neq k x)) by congruence. reflexivity.
  - destruct (N.eqb k y); [destruct b|]; rewrite ?IH; reflexivity.
Qed.
Lemma step_unknown A m x p q : sifter m -> speaks_of A m -> ~ In x A -> step m (p ++ x :: q) = step m p ++ x :: step m q.
Proof.
  intros M S N. destruct M as [cc|el|k]; cbn [step].
  - rewrite map_app. cbn [map]. rewrite (conv_unknown A cc x S N). reflexivity.
  - inversion S as [|? I|]; subst. rewrite filter_app. cbn [filter].
    destruct (mem N.eqb x el) eqn:E; [|reflexivity]. exfalso. apply N, I. apply (mem_In N.eqb N.eqb_eq), E.
  - inversion S as [| |? I]; subst. apply red_unknown. intros ->. exact (N I).
Qed.
Lemma run_unknown A c x : Forall sifter c -> Forall (speaks_of A) c -> ~ In x A -> forall p q, run c (p ++ x :: q) = run c p ++ x :: run c q.
Proof.
  intros F S N. induction F as [|m c M _ IH]; intros p q; [reflexivity|]. inversion S as [|? ? S1 S2]; subst.
  cbn [run fold_left]. rewrite (step_unknown A m x p q M S1 N). apply (IH S2).
Qed.
Lemma split_unknown (A : list char) t : (forall x, In x t -> In x A) \/ exists p x q, t = p ++ x :: q /\ ~ In x A /\ forall y, In y p -> In y A.
Proof.
  induction t as [|x t IH]; [left; intros x []|]. destruct (in_dec N.eq_dec x A) as [I|N].
  - destruct IH as [H|(p & y & q & -> & Y & H)]; [left; intros y [<-|Hy]; auto|]. right. exists (x :: p), y, q.
    split; [reflexivity|]. split; [exact Y|]. intros z [<-|Z]; auto.
  - right. exists [], x, t. split; [reflexivity|]. split; [exact N|intros y []].
Qed.
Lemma part_in u t : part u t -> forall x, In x u -> In x t.
Proof. induction 1; intros y Y; [exact Y|right; auto|]. destruct Y as [<-|Y]; [left; reflexivity|right; auto]. Qed.
(** Texts of at most three of the characters the two pipelines speak of show whether they are the same. *)
Theorem C113_finite : forall c d A, Forall sifter c -> Forall sifter d -> Forall (speaks_of A) (c ++ d) ->
  (forall u, (forall x, In x u -> In x A) -> length u <= 3 -> agree c d u) -> forall t, agree c d t.
Proof.
  intros c d A C D S H t. apply Forall_app in S as [Sc Sd].
  assert (K : forall u, (forall x, In x u -> In x A) -> run c u = run d u).
  { intros u U. apply (agree_eq c d (run c) (run d) (run_does c C) (run_does d D)). apply (C113_three c d u C D).
    intros v V L. apply H; [|exact L]. intros x X. exact (U x (part_in _ _ V x X)). }
  apply (agree_eq c d (run c) (run d) (run_does c C) (run_does d D)).
  remember (length t) as n eqn:L. revert t L. induction n as [n IH] using lt_wf_ind. intros t ->.
  destruct (split_unknown A t) as [U|(p & x & q & -> & X & Q)]; [apply K, U|].
  rewrite (run_unknown A c x C Sc X), (run_unknown A d x D Sd X), (K p Q). do 2 f_equal.
  apply (IH (length q)); [rewrite app_length; cbn; lia|reflexivity].
Qed.
Print Assumptions C113_finite.
(** Whether such a pipeline is idempotent, and whether two can be exchanged, shows on texts of three characters. *)
Theorem C113_idempotent : forall c, Forall sifter c ->
  (forall t, length t <= 3 -> forall out, result c t out -> result c out out) -> forall t out, result c t out -> result c out out.
Proof.
  intros c C H.
  assert (K : forall t, agree (c ++ c) c t).
  { intros t. apply (C113_three _ _ t); [apply Forall_app; auto|exact C|]. intros u _ L out. rewrite result_app. split.
    - intros (mid & R1 & R2). specialize (H u L mid R1). apply (run_does c C) in H, R2. rewrite <- H in R2. subst. exact R1.
    - intros R. exists out. split; [exact R|]. exact (H u L out R). }
  intros t out R. specialize (K t out). rewrite result_app in K. apply K in R as (mid & R1 & R2).
  assert (R : result c t out) by (apply K; exists mid; auto).
  assert (E : mid = out) by (apply (run_does c C) in R, R1; congruence). subst mid. exact R2.
Qed.
Print Assumptions C113_idempotent.
Theorem C113_exchange : forall c d, Forall sifter c -> Forall sifter d ->
  (forall t, length t <= 3 -> agree (c ++ d) (d ++ c) t) -> forall t, agree (c ++ d) (d ++ c) t.
Proof. intros c d C D H t. apply C113_three; [apply Forall_app; auto|apply Forall_app; auto|]. intros u _ L. apply H, L. Qed.
Print Assumptions C113_exchange.

(** Two characters are not enough. *)
Local Arguments N.eqb !_ !_ : simpl nomatch.
Theorem C113_two_refuted : exists c d, Forall sifter c /\ Forall sifter d /\ (forall t, length t <= 2 -> agree c d t) /\ exists t, ~ agree c d t.
Proof.
  exists [MRed 97%N; MElim [98%N]], [MElim [98%N]; MRed 97%N].
  assert (C : Forall sifter [MRed 97%N; MElim [98%N]]) by (repeat constructor). assert (D : Forall sifter [MElim [98%N]; MRed 97%N]) by (repeat constructor).
  split; [exact C|]. split; [exact D|]. split.
  - intros t L. apply (agree_run _ _ t C D). destruct t as [|x [|y [|z t]]]; [reflexivity| | |cbn in L; lia].
    + rewrite <- !run_sift by assumption. cbn [run fold_left step red_rec filter mem existsb].
      destruct (N.eqb_spec 97 x) as [<-|Nx]; [|destruct (N.eqb_spec x 98) as [->|Mx]];
        cbn; repeat match goal with H : ?a <> ?b |- context [N.eqb ?a ?b] => rewrite (proj2 (N.eqb_neq a b) H); cbn end; reflexivity.
    + rewrite <- !run_sift by assumption. cbn [run fold_left step red_rec filter mem existsb].
      destruct (N.eqb_spec 97 x) as [<-|Nx]; [|destruct (N.eqb_spec x 98) as [->|Mx]]; (destruct (N.eqb_spec 97 y) as [<-|Ny]; [|destruct (N.eqb_spec y 98) as [->|My]]);
        cbn; repeat match goal with H : ?a <> ?b |- context [N.eqb ?a ?b] => rewrite (proj2 (N.eqb_neq a b) H); cbn end; reflexivity.
  - exists [97; 98; 97]%N. intros A. apply (agree_run _ _ _ C D) in A. vm_compute in A. discriminate A.
Qed.
Print Assumptions C113_two_refuted.

(** ** With trims or dotted-space eliminations no length is enough *)
Definition turn : converter := [(SPACE, 97%N); (97%N, SPACE)].
Definition swap : char -> char := conv1 turn.
Lemma swap_twice x : swap (swap x) = x.
Proof.
  unfold swap. destruct (N.eq_dec x SPACE) as [->|N]; [reflexivity|]. destruct (N.eq_dec x 97) as [->|N']; [reflexivity|].
  assert (E : conv1 turn x = x).
  { apply (conv_unknown [SPACE; 97%N]); [|intros [E|[E|[]]]; congruence]. constructor. intros c d [E|[E|[]]]; injection E as <- <-; cbn; auto. }
  rewrite !E. reflexivity.
Qed.
Lemma map_swap_twice s : map swap (map swap s) = s.
Proof. rewrite map_map. erewrite map_ext; [apply map_id|]. apply swap_twice. Qed.
Fixpoint staircase (n : nat) : str := match n with 0 => [98%N] | S m => SPACE :: map swap (staircase m) end.
Lemma staircase_two n : staircase (S (S n)) = SPACE :: 97%N :: staircase n.
Proof. cbn [staircase map]. rewrite map_swap_twice. reflexivity. Qed.
Section Turns.
  Variable m : modifier.
  Variable f : str -> str.
  Hypothesis m_does : does m f.
  Hypothesis f_less : forall s, part (f s) s.
  Hypothesis f_stairs : forall n, f (staircase (S n)) = map swap (staircase n).
  Let g (s : str) : str := map swap (f s).
  Fixpoint turns (n : nat) : chanoma := match n with 0 => [] | S n => m :: MConv turn :: turns n end.
  Fixpoint times (n : nat) (s : str) : str := match n with 0 => s | S n => times n (g s) end.
  Lemma turns_does n : forall s out, result (turns n) s out <-> out = times n s.
  Proof.
    induction n as [|n IH]; intros s out; [apply result_nil|]. cbn [turns times].
    change (m :: MConv turn :: turns n) with ([m; MConv turn] ++ turns n). rewrite result_app. split.
    - intros (mid & A & B). apply (does_two _ _ _ _ m_does (does_conv turn)) in A. apply IH in B. subst. reflexivity.
    - intros ->. exists (g s). split; [apply (does_two _ _ _ _ m_does (does_conv turn)); reflexivity|apply IH; reflexivity].
  Qed.
  Lemma part_same u t : part u t -> length t <= length u -> u = t.
  Proof.
    induction 1 as [|x u t P IH|x u t P IH]; cbn; intros L; [reflexivity| |f_equal; apply IH; lia].
    apply part_length in P. lia.
  Qed.
  Lemma g_twice s : g (g s) = s \/ length (g (g s)) < length s.
  Proof.
    unfold g. rewrite map_length. pose proof (part_length _ _ (f_less s)) as L1. pose proof (part_length _ _ (f_less (map swap (f s)))) as L2. rewrite map_length in L2.
    destruct (Nat.le_gt_cases (length s) (length (f (map swap (f s))))) as [L|L]; [left|right; exact L].
    rewrite (part_same _ _ (f_less (map swap (f s)))) by (rewrite map_length; lia). rewrite map_swap_twice. apply part_same; [apply f_less|lia].
  Qed.
  Lemma times_g n : forall s, times n (g s) = g (times n s).
  Proof. induction n as [|n IH]; intros s; [reflexivity|]. cbn [times]. apply IH. Qed.
  Lemma settled n : forall t, length t <= n -> g (g (times (2 * n) t)) = times (2 * n) t.
  Proof.
    induction n as [|n IH]; intros t L.
    - destruct (g_twice t) as [E|E]; [exact E|lia].
    - replace (2 * S n) with (S (S (2 * n))) by lia. cbn [times]. destruct (g_twice t) as [E|E].
      + rewrite E. assert (K : forall j, times (2 * j) t = t).
        { induction j as [|j J]; [reflexivity|]. replace (2 * S j) with (S (S (2 * j))) by lia. cbn [times]. rewrite E. exact J. }
        rewrite K. exact E.
      + apply IH. lia.
  Qed.
  Lemma times_stairs j : forall n, times j (staircase (j + n)) = staircase n.
  Proof.
    induction j as [|j IH]; intros n; [reflexivity|]. cbn [times]. change (S j + n) with (S (j + n)). unfold g at 1. rewrite f_stairs, map_swap_twice. apply IH.
  Qed.
  Lemma no_length n : (forall t, length t <= n -> agree (turns (2 * n)) (turns (S (S (2 * n)))) t) /\ ~ agree (turns (2 * n)) (turns (S (S (2 * n)))) (staircase (2 * n + 1)).
  Proof.
    split.
    - intros t L. apply (agree_eq _ _ _ _ (turns_does _) (turns_does _)). cbn [times]. rewrite !times_g, settled by exact L. reflexivity.
    - intros A. apply (agree_eq _ _ _ _ (turns_does _) (turns_does _)) in A. rewrite times_stairs in A.
      replace (S (S (2 * n))) with (1 + (2 * n + 1)) in A by lia. 
      assert (E : times (1 + (2 * n + 1)) (staircase (2 * n + 1)) = g (times (2 * n + 1) (staircase (2 * n + 1 + 0)))) by (rewrite Nat.add_0_r; cbn [times Nat.add]; apply times_g).
      rewrite E, times_stairs in A. apply (f_equal (@length _)) in A. unfold g in A. rewrite map_length in A.
      pose proof (part_length _ _ (f_less (staircase 0))) as Q. cbn in A, Q. lia.
  Qed.
End Turns.
Lemma part_repeat (k : char) n t u : part u t -> part u (repeat k n ++ t).
Proof. intros P. induction n; [exact P|cbn; apply part_skip; assumption]. Qed.
Lemma trim_part s : part (trim_modify s) s.
Proof.
  destruct (trim_modify_trimmed s) as (_ & _ & a & b & E). rewrite E at 2. apply part_repeat.
  rewrite <- (app_nil_r (trim_modify s)) at 1. apply part_app; [apply part_refl|apply part_none].
Qed.
Lemma dot_part s : forall p sp, part (dot_rec p sp s) (if sp then SPACE :: s else s).
Proof.
  induction s as [|c s IH]; intros p sp; [destruct sp; apply part_none|]. cbn [dot_rec]. destruct (N.eqb_spec c SPACE) as [->|N].
  - destruct (is_ascii_alphanumeric p); [specialize (IH SPACE true)|specialize (IH SPACE sp)]; destruct sp; try exact IH; apply part_skip; exact IH.
  - specialize (IH c false). cbn beta iota in IH. destruct sp; [destruct (is_ascii_alphanumeric c)|]; cbn [app]; [apply part_take, part_take|apply part_skip, part_take|apply part_take]; exact IH.
Qed.
Lemma stairs_last n : exists r, staircase n = r ++ [98%N].
Proof.
  induction n as [|n (r & E)]; [exists []; reflexivity|]. cbn [staircase]. rewrite E, map_app. exists (SPACE :: map swap r). reflexivity.
Qed.
Lemma stairs_next n : hd_error (map swap (staircase n)) <> Some SPACE.
Proof. destruct n as [|n]; cbn; discriminate. Qed.
Lemma trim_stairs n : trim_modify (staircase (S n)) = map swap (staircase n).
Proof.
  apply (trimmed_unique (staircase (S n))); [apply trim_modify_trimmed|]. split; [apply stairs_next|]. split.
  - destruct (stairs_last n) as (r & ->). rewrite map_app, rev_app_distr. cbn. discriminate.
  - exists 1, 0. cbn [repeat app]. rewrite app_nil_r. reflexivity.
Qed.
Lemma dot_stairs_in n : dot_rec 97%N false (staircase n) = staircase n /\ dot_rec 97%N false (staircase (S n)) = staircase (S n).
Proof.
  induction n as [|n [IH1 IH2]]; [split; reflexivity|]. split; [exact IH2|]. rewrite staircase_two.
  transitivity (SPACE :: 97%N :: dot_rec 97%N false (staircase n)); [reflexivity|]. rewrite IH1. reflexivity.
Qed.
Lemma dot_stairs n : dot_rec SPACE false (staircase (S n)) = map swap (staircase n).
Proof.
  destruct n as [|n]; [reflexivity|]. rewrite staircase_two.
  transitivity (97%N :: dot_rec 97%N false (staircase n)); [reflexivity|]. rewrite (proj1 (dot_stairs_in n)).
  cbn [staircase map]. rewrite map_swap_twice. reflexivity.
Qed.
Lemma turns_kind m (Q : modifier -> Prop) : Q m -> Q (MConv turn) -> forall n, Forall Q (turns m n).
Proof. intros A B. induction n; cbn [turns]; auto. Qed.
Theorem C113_trims_refuted : forall n, exists c d, Forall (fun m => m = MTrim \/ exists cc, m = MConv cc) (c ++ d) /\
  (forall t, length t <= n -> agree c d t) /\ exists t, ~ agree c d t.
Proof.
  intros n. exists (turns MTrim (2 * n)), (turns MTrim (S (S (2 * n)))). split; [apply Forall_app; split; apply turns_kind; eauto|].
  destruct (no_length MTrim trim_modify does_trim trim_part trim_stairs n) as [A B]. split; [exact A|]. eexists. exact B.
Qed.
Print Assumptions C113_trims_refuted.
Theorem C113_dotted_refuted : forall n, exists c d, Forall (fun m => m = MDot \/ exists cc, m = MConv cc) (c ++ d) /\
  (forall t, length t <= n -> agree c d t) /\ exists t, ~ agree c d t.
Proof.
  intros n. exists (turns MDot (2 * n)), (turns MDot (S (S (2 * n)))). split; [apply Forall_app; split; apply turns_kind; eauto|].
  destruct (no_length MDot (dot_rec SPACE false) does_dot (fun s => dot_part s SPACE false) dot_stairs n) as [A B]. split; [exact A|]. eexists. exact B.
Qed.
Print Assumptions C113_dotted_refuted.

(** Collapsing runs of a, removing hyphens and then turning A into a is not the same as doing it in the opposite order;
    "a-A" shows it, and its result is described by what is left out. *)
Example C113_case :
  let c := [MRed 97%N; MElim [45%N]; MConv [(65, 97)%N]] in let d := [MConv [(65, 97)%N]; MElim [45%N]; MRed 97%N] in
  Forall sifter c /\ Forall sifter d /\ Forall (speaks_of [97; 45; 65]%N) (c ++ d) /\
  result c [97; 45; 65]%N [97; 97]%N /\ result d [97; 45; 65]%N [97%N] /\ left_out d [97; 45]%N 65%N /\ part [97; 65]%N [97; 45; 65]%N.
Proof.
  cbn zeta. assert (C : Forall sifter [MRed 97%N; MElim [45%N]; MConv [(65, 97)%N]]) by (repeat constructor).
  assert (D : Forall sifter [MConv [(65, 97)%N]; MElim [45%N]; MRed 97%N]) by (repeat constructor).
  split; [exact C|]. split; [exact D|]. split.
  { assert (S1 : speaks_of [97; 45; 65]%N (MRed 97%N)) by (constructor; cbn; auto).
    assert (S2 : speaks_of [97; 45; 65]%N (MElim [45%N])) by (constructor; intros x [<-|[]]; cbn; auto).
    assert (S3 : speaks_of [97; 45; 65]%N (MConv [(65, 97)%N])) by (constructor; intros x y [E|[]]; injection E as <- <-; cbn; auto).
    cbn [app]. auto 10. }
  split; [apply (run_does _ C); reflexivity|]. split; [apply (run_does _ D); reflexivity|]. split.
  - apply (out_merged _ _ _ [MConv [(65, 97)%N]; MElim [45%N]] 97%N [] [] 97%N [45%N]); [reflexivity|reflexivity| | |].
    + apply one_image; [repeat constructor|reflexivity].
    + apply one_image; [repeat constructor|reflexivity].
    + intros v [<-|[]]. apply one_gone; [repeat constructor|reflexivity].
  - apply part_take, part_skip, part_take, part_nil.
Qed.
