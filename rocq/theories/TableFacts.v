From Verif Require Import Base BaseFacts Utf8 StrOps Corr Position Table Converter ConverterFacts Spec.

Definition first_pair (it : item) : option (char * char) :=
  match from it, to it with f :: _, t :: _ => Some (f, t) | _, _ => None end.
Definition nonempty_item (it : item) : bool :=
  match from it, to it with _ :: _, _ :: _ => true | _, _ => false end.
Definition pairs_of (items : list item) : list (char * char) :=
  flat_map (fun it => match first_pair it with Some p => [p] | None => [] end) items.

Lemma insert_items_eq items m :
  insert_items m items =
  if forallb nonempty_item items
  then Ok (fold_left (fun m kv => hm_insert N.eqb (fst kv) (snd kv) m) (pairs_of items) m)
  else Panic.
Proof.
  revert m; induction items as [|[f t] items IH]; intros m; [reflexivity|].
  cbn [insert_items forallb pairs_of flat_map]. unfold nonempty_item at 1, first_pair at 1. cbn [from to].
  destruct f as [|f0 f]; cbn [first_char hd_error unwrap bind andb]; [reflexivity|].
  destruct t as [|t0 t]; cbn [first_char hd_error unwrap bind andb]; [reflexivity|].
  rewrite IH. destruct (forallb nonempty_item items); reflexivity.
Qed.

Lemma pairs_of_app a b : pairs_of (a ++ b) = pairs_of a ++ pairs_of b.
Proof. apply flat_map_app. Qed.

Lemma insert_tables_eq ts m :
  insert_tables m ts =
  if forallb nonempty_item (tables_items ts)
  then Ok (fold_left (fun m kv => hm_insert N.eqb (fst kv) (snd kv) m) (pairs_of (tables_items ts)) m)
  else Panic.
Proof.
  revert m; induction ts as [|t ts IH]; intros m; [reflexivity|].
  cbn [insert_tables]. unfold tables_items in *. cbn [map concat]. unfold table_items.
  rewrite insert_items_eq, forallb_app, pairs_of_app, fold_left_app.
  destruct (forallb nonempty_item (t_corr t)); cbn [bind andb]; [|reflexivity].
  apply IH.
Qed.

Lemma from_tables_eq ts :
  from_tables ts =
  if forallb nonempty_item (tables_items ts)
  then Ok (hm_collect N.eqb (pairs_of (tables_items ts))) else Panic.
Proof. unfold from_tables. rewrite insert_tables_eq. reflexivity. Qed.

Lemma nonempty_item_true it : nonempty_item it = true <-> from it <> [] /\ to it <> [].
Proof.
  unfold nonempty_item. destruct (from it), (to it); split; try discriminate; try tauto;
  intros _; split; discriminate.
Qed.

Lemma hm_get_app {V} (k : char) (a b : list (char * V)) :
  hm_get N.eqb k (a ++ b) = match hm_get N.eqb k a with Some v => Some v | None => hm_get N.eqb k b end.
Proof.
  induction a as [|[k1 v1] a IHa]; simpl; [reflexivity|].
  destruct (N.eqb k k1); [reflexivity|apply IHa].
Qed.

Lemma get_pairs_of items c :
  forallb nonempty_item items = true ->
  match hm_get N.eqb c (rev (pairs_of items)) with
  | Some t => last_match items c t
  | None => no_match items c
  end.
Proof.
  induction items as [|it items IH] using rev_ind; intros H.
  - simpl. constructor.
  - rewrite forallb_app in H. apply andb_true_iff in H. destruct H as [H1 H2].
    rewrite pairs_of_app, rev_app_distr, hm_get_app.
    destruct it as [f t]. simpl in H2. unfold nonempty_item in H2. cbn [from to] in H2.
    destruct f as [|f0 f]; [discriminate|]. destruct t as [|t0 t]; [discriminate|].
    cbn. destruct (N.eqb_spec c f0) as [->|Hne].
    + exists items, (Item (f0 :: f) (t0 :: t)), []. repeat split.
      * exists f; reflexivity.
      * exists t; reflexivity.
      * constructor.
    + specialize (IH H1). destruct (hm_get N.eqb c (rev (pairs_of items))) as [x|].
      * destruct IH as (l1 & it & l2 & E & B1 & B2 & F).
        exists l1, it, (l2 ++ [Item (f0 :: f) (t0 :: t)]). repeat split; auto.
        -- rewrite E, <- app_assoc. reflexivity.
        -- apply Forall_app. split; [exact F|]. constructor; [|constructor].
           intros (r & Hr). cbn in Hr. inversion Hr. congruence.
      * apply Forall_app. split; [exact IH|]. constructor; [|constructor].
        intros (r & Hr). cbn in Hr. inversion Hr. congruence.
Qed.

Lemma begins_inj s c c' : begins s c -> begins s c' -> c = c'.
Proof. intros (r & ->) (r' & H). inversion H. reflexivity. Qed.

Lemma last_match_unique items c t t' : last_match items c t -> last_match items c t' -> t = t'.
Proof.
  intros (l1 & it & l2 & E & B1 & B2 & F) (l1' & it' & l2' & E' & B1' & B2' & F').
  assert (Hl : l2 = l2' /\ it = it').
  { rewrite E in E'. clear E. apply (f_equal (@rev item)) in E'. rewrite !rev_app_distr in E'. simpl in E'.
    rewrite <- !app_assoc in E'. simpl in E'.
    apply Forall_rev in F. apply Forall_rev in F'.
    enough (Hgoal : rev l2 = rev l2' /\ it = it').
    { destruct Hgoal as [Hr Hi]. split; [|exact Hi]. rewrite <- (rev_involutive l2), Hr, rev_involutive. reflexivity. }
    revert F F' E'. generalize (rev l2) as a, (rev l2') as a', (rev l1) as b, (rev l1') as b'.
    induction a as [|x a IH]; intros a' b b' F F' E'.
    - destruct a' as [|x' a']; simpl in E'; inversion E'; subst; [auto|].
      inversion F'; contradiction.
    - destruct a' as [|x' a']; simpl in E'; inversion E'; subst.
      + inversion F; contradiction.
      + inversion F; inversion F'; subst. destruct (IH a' b b') as [-> ->]; auto. }
  destruct Hl as [-> ->]. eapply begins_inj; eassumption.
Qed.

Lemma last_match_not_none items c t : last_match items c t -> ~ no_match items c.
Proof.
  intros (l1 & it & l2 & E & B1 & _) H. unfold no_match in H. rewrite E in H.
  apply Forall_app in H. destruct H as [_ H]. inversion H; contradiction.
Qed.

Lemma conv_get_from_tables ts cc c :
  from_tables ts = Ok cc ->
  match conv_get cc c with
  | Some t => last_match (tables_items ts) c t
  | None => no_match (tables_items ts) c
  end.
Proof.
  rewrite from_tables_eq. destruct (forallb nonempty_item (tables_items ts)) eqn:E; [|discriminate].
  intros H; inversion H; subst. unfold conv_get. rewrite (hm_get_collect N.eqb N.eqb_eq).
  apply get_pairs_of. exact E.
Qed.

Lemma from_tables_nodup ts cc : from_tables ts = Ok cc -> NoDup (map fst cc).
Proof.
  rewrite from_tables_eq. destruct (forallb nonempty_item (tables_items ts)) eqn:E; [|discriminate].
  intros H; inversion H; subst. apply (hm_collect_nodup N.eqb N.eqb_eq).
Qed.

Lemma conv_get_iff cc c t : NoDup (map fst cc) -> (conv_get cc c = Some t <-> In (c, t) cc).
Proof.
  intros H. split.
  - apply (hm_get_In N.eqb N.eqb_eq).
  - apply (hm_In_get N.eqb N.eqb_eq). exact H.
Qed.

Lemma pointwise_map (R : char -> char -> Prop) f s :
  (forall c, In c s -> R c (f c) \/ (f c = c /\ forall t, ~ R c t)) -> pointwise R s (map f s).
Proof.
  unfold pointwise. induction s as [|c s IH]; intros H; constructor.
  - apply H. left; reflexivity.
  - apply IH. intros x Hx. apply H. right; exact Hx.
Qed.

Lemma pointwise_det (R : char -> char -> Prop) s out out' :
  (forall c t t', R c t -> R c t' -> t = t') -> pointwise R s out -> pointwise R s out' -> out = out'.
Proof.
  intros Hd H. revert out'. induction H as [|c d s out Hc H IH]; intros out' H'; inversion H' as [|? d' ? out'' Hc' H'']; subst; [reflexivity|].
  f_equal; [|apply IH; assumption].
  destruct Hc as [Hc|[-> Hc]], Hc' as [Hc'|[-> Hc']]; try reflexivity; try (exfalso; firstorder; fail).
  eapply Hd; eassumption.
Qed.
