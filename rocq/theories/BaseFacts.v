From Verif Require Import Base.

Lemma str_eqb_refl a : str_eqb a a = true.
Proof. induction a as [|x a IH]; simpl; [reflexivity|]. rewrite N.eqb_refl. exact IH. Qed.

Lemma str_eqb_eq a b : str_eqb a b = true <-> a = b.
Proof.
  revert b; induction a as [|x a IH]; intros [|y b]; simpl; split; intros H; try easy.
  - apply andb_true_iff in H as [H1 H2]. apply N.eqb_eq in H1. apply IH in H2. congruence.
  - inversion H; subst. rewrite N.eqb_refl. apply IH. reflexivity.
Qed.

Lemma str_eqb_spec a b : reflect (a = b) (str_eqb a b).
Proof.
  destruct (str_eqb a b) eqn:E; constructor.
  - now apply str_eqb_eq.
  - intros H; apply str_eqb_eq in H; congruence.
Qed.

Lemma str_eq_dec (a b : str) : {a = b} + {a <> b}.
Proof. apply list_eq_dec, N.eq_dec. Qed.

(** ** shuffle is exactly "any permutation" *)
Lemma remove_nth_perm {A} (l : list A) k d :
  k < length l -> Permutation l (nth k l d :: remove_nth k l).
Proof.
  revert k; induction l as [|x l IH]; intros k Hk; simpl in *; [lia|].
  destruct k as [|k]; [reflexivity|].
  cbn [nth]. etransitivity; [apply perm_skip, (IH k); lia|apply perm_swap].
Qed.

Lemma remove_nth_length {A} (l : list A) k :
  k < length l -> length (remove_nth k l) = length l - 1.
Proof.
  revert k; induction l as [|x l IH]; intros k Hk; simpl in *; [lia|].
  destruct k as [|k]; simpl; [lia|]. rewrite IH; lia.
Qed.

Lemma shuffle_n_perm {A} n picks (l : list A) :
  length l = n -> Permutation l (shuffle_n n picks l).
Proof.
  revert picks l; induction n as [|n IH]; intros picks l Hl.
  - destruct l; simpl in *; [constructor|lia].
  - destruct l as [|x l]; [simpl in *; lia|].
    cbn [shuffle_n]. set (k := Nat.modulo _ _).
    assert (Hk : k < length (x :: l)) by (apply Nat.mod_upper_bound; simpl; lia).
    etransitivity; [apply (remove_nth_perm _ k x Hk)|].
    apply perm_skip, IH. rewrite remove_nth_length by exact Hk. lia.
Qed.

Lemma shuffle_perm {A} picks (l : list A) : Permutation l (shuffle picks l).
Proof. apply shuffle_n_perm. reflexivity. Qed.

Lemma hash_iter_perm {A} o (l : list A) : Permutation l (hash_iter o l).
Proof. apply shuffle_perm. Qed.

Lemma remove_nth_app {A} (a b : list A) x :
  remove_nth (length a) (a ++ x :: b) = a ++ b.
Proof. induction a as [|y a IH]; simpl; [reflexivity|]. f_equal. exact IH. Qed.

(** Every permutation is a shuffle: schedules range over all iteration orders. *)
Lemma shuffle_surj {A} (l l' : list A) :
  Permutation l l' -> exists picks, shuffle picks l = l'.
Proof.
  unfold shuffle. remember (length l) as n eqn:Hn.
  revert l l' Hn; induction n as [|n IH]; intros l l' Hn HP.
  - destruct l; [|discriminate]. apply Permutation_nil in HP. subst. exists []. reflexivity.
  - destruct l' as [|y l'].
    { apply Permutation_sym, Permutation_nil in HP. subst; discriminate. }
    assert (Hin : In y l) by (apply Permutation_in with (y :: l'); [now symmetry|left; reflexivity]).
    apply in_split in Hin as (a & b & ->).
    assert (HP' : Permutation (a ++ b) l').
    { apply Permutation_cons_inv with y. etransitivity; [|exact HP]. apply Permutation_middle. }
    assert (Hlen : n = length (a ++ b)).
    { rewrite app_length in Hn |- *; simpl in Hn; lia. }
    destruct (IH _ _ Hlen HP') as [picks Hp].
    exists (length a :: picks).
    assert (Hlt : length a < length (a ++ y :: b)) by (rewrite app_length; simpl; lia).
    destruct (a ++ y :: b) as [|z r] eqn:E; [destruct a; discriminate|].
    cbn [shuffle_n hd tl]. rewrite Nat.mod_small by exact Hlt.
    rewrite <- E. rewrite remove_nth_app. f_equal; [|exact Hp].
    rewrite app_nth2 by lia. rewrite Nat.sub_diag. reflexivity.
Qed.

(** A schedule that makes one given traversal go in one given order. *)
Lemma hash_iter_surj {A} (l l' : list A) :
  Permutation l l' -> exists o, hash_iter o l = l'.
Proof. intros H. destruct (shuffle_surj _ _ H) as [p Hp]. exists (fun _ => p). exact Hp. Qed.

(** ** Hash maps *)
Section HashFacts.
  Context {K V : Type} (eqb : K -> K -> bool).
  Hypothesis eqb_eq : forall a b, eqb a b = true <-> a = b.

  Lemma eqb_refl' a : eqb a a = true.
  Proof. apply eqb_eq. reflexivity. Qed.
  Lemma eqb_neq' a b : a <> b -> eqb a b = false.
  Proof. intros H. destruct (eqb a b) eqn:E; [apply eqb_eq in E; contradiction|reflexivity]. Qed.

  Lemma hm_get_insert (k k' : K) (v : V) m :
    hm_get eqb k (hm_insert eqb k' v m) = if eqb k k' then Some v else hm_get eqb k m.
  Proof.
    induction m as [|[k0 v0] m IH]; simpl.
    - reflexivity.
    - destruct (eqb k' k0) eqn:E1; simpl.
      + apply eqb_eq in E1. subst k0. destruct (eqb k k') eqn:E2; reflexivity.
      + destruct (eqb k k0) eqn:E2.
        * apply eqb_eq in E2. subst k0.
          destruct (eqb k k') eqn:E3; [|reflexivity].
          apply eqb_eq in E3. subst. rewrite eqb_refl' in E1. discriminate.
        * exact IH.
  Qed.

  Lemma hm_insert_keys (k : K) (v : V) m x :
    In x (map fst (hm_insert eqb k v m)) <-> x = k \/ In x (map fst m).
  Proof.
    induction m as [|[k0 v0] m IH]; simpl.
    - intuition.
    - destruct (eqb k k0) eqn:E; simpl.
      + apply eqb_eq in E. subst. intuition.
      + rewrite IH. intuition.
  Qed.

  Lemma hm_insert_nodup (k : K) (v : V) m :
    NoDup (map fst m) -> NoDup (map fst (hm_insert eqb k v m)).
  Proof.
    induction m as [|[k0 v0] m IH]; simpl; intros H.
    - constructor; [intros []|constructor].
    - inversion H as [|? ? Hn Hd]; subst.
      destruct (eqb k k0) eqn:E; simpl.
      + exact H.
      + constructor; [|apply IH; exact Hd].
        rewrite hm_insert_keys. intros [->|Hin]; [|contradiction].
        rewrite eqb_refl' in E. discriminate.
  Qed.

  Lemma hm_collect_from_nodup kvs (m : list (K * V)) :
    NoDup (map fst m) ->
    NoDup (map fst (fold_left (fun m kv => hm_insert eqb (fst kv) (snd kv) m) kvs m)).
  Proof.
    revert m; induction kvs as [|kv kvs IH]; simpl; intros m H; [exact H|].
    apply IH, hm_insert_nodup, H.
  Qed.

  Lemma hm_collect_nodup (kvs : list (K * V)) : NoDup (map fst (hm_collect eqb kvs)).
  Proof. apply hm_collect_from_nodup. constructor. Qed.

  Lemma hm_get_In (k : K) (v : V) m : hm_get eqb k m = Some v -> In (k, v) m.
  Proof.
    induction m as [|[k0 v0] m IH]; simpl; [discriminate|].
    destruct (eqb k k0) eqn:E.
    - intros H; inversion H; subst. apply eqb_eq in E. subst. left; reflexivity.
    - intros H; right; apply IH, H.
  Qed.

  Lemma hm_get_None (k : K) (m : list (K * V)) : hm_get eqb k m = None <-> ~ In k (map fst m).
  Proof.
    induction m as [|[k0 v0] m IH]; simpl; [intuition|].
    destruct (eqb k k0) eqn:E.
    - apply eqb_eq in E. subst. split; [discriminate|]. intros H; exfalso; apply H; left; reflexivity.
    - rewrite IH. split; [|intuition].
      intros H [->|Hi]; [rewrite eqb_refl' in E; discriminate|contradiction].
  Qed.

  Lemma hm_In_get (k : K) (v : V) m : NoDup (map fst m) -> In (k, v) m -> hm_get eqb k m = Some v.
  Proof.
    induction m as [|[k0 v0] m IH]; simpl; [intros _ []|].
    intros Hnd [H|H].
    - inversion H; subst. rewrite eqb_refl'. reflexivity.
    - inversion Hnd as [|? ? Hn Hd]; subst.
      destruct (eqb k k0) eqn:E.
      + apply eqb_eq in E. subst. exfalso. apply Hn. apply (in_map fst) in H. exact H.
      + apply IH; assumption.
  Qed.

  Lemma hm_get_collect_from (k : K) kvs (m : list (K * V)) :
    hm_get eqb k (fold_left (fun m kv => hm_insert eqb (fst kv) (snd kv) m) kvs m) =
    match hm_get eqb k (rev kvs) with Some v => Some v | None => hm_get eqb k m end.
  Proof.
    revert m; induction kvs as [|[k0 v0] kvs IH]; intros m; simpl; [reflexivity|].
    rewrite IH. rewrite hm_get_insert.
    assert (Happ : forall (a b : list (K * V)), hm_get eqb k (a ++ b) =
       match hm_get eqb k a with Some v => Some v | None => hm_get eqb k b end).
    { induction a as [|[k1 v1] a IHa]; intros b; simpl; [reflexivity|].
      destruct (eqb k k1); [reflexivity|apply IHa]. }
    rewrite Happ. simpl. destruct (hm_get eqb k (rev kvs)); [reflexivity|].
    destruct (eqb k k0); reflexivity.
  Qed.

  (** In a collected map the last binding wins. *)
  Lemma hm_get_collect (k : K) (kvs : list (K * V)) :
    hm_get eqb k (hm_collect eqb kvs) = hm_get eqb k (rev kvs).
  Proof.
    unfold hm_collect. rewrite hm_get_collect_from. simpl.
    destruct (hm_get eqb k (rev kvs)); reflexivity.
  Qed.

  Lemma mem_In (x : K) s : mem eqb x s = true <-> In x s.
  Proof.
    unfold mem. rewrite existsb_exists. split.
    - intros (y & Hy & E). apply eqb_eq in E. subst. exact Hy.
    - intros H. exists x. split; [exact H|apply eqb_refl'].
  Qed.
  Lemma mem_false (x : K) s : mem eqb x s = false <-> ~ In x s.
  Proof.
    destruct (mem eqb x s) eqn:E.
    - apply mem_In in E. split; [discriminate|contradiction].
    - split; [|reflexivity]. intros _ H. apply mem_In in H. congruence.
  Qed.

  Lemma hs_insert_In (x y : K) s : In y (hs_insert eqb x s) <-> y = x \/ In y s.
  Proof.
    unfold hs_insert. destruct (existsb (eqb x) s) eqn:E.
    - apply mem_In in E. intuition. subst. exact E.
    - rewrite in_app_iff. simpl. intuition.
  Qed.
  Lemma hs_insert_nodup (x : K) s : NoDup s -> NoDup (hs_insert eqb x s).
  Proof.
    unfold hs_insert. intros H. destruct (existsb (eqb x) s) eqn:E; [exact H|].
    assert (Hn : ~ In x s) by (intros Hi; apply mem_In in Hi; unfold mem in Hi; congruence).
    apply Permutation_NoDup with (x :: s); [apply Permutation_cons_append|].
    constructor; assumption.
  Qed.
  Lemma hs_insert_all_In xs (y : K) s : In y (hs_insert_all eqb xs s) <-> In y xs \/ In y s.
  Proof.
    unfold hs_insert_all. revert s; induction xs as [|x xs IH]; intros s; simpl.
    - intuition.
    - rewrite IH, hs_insert_In. intuition.
  Qed.
  Lemma hs_insert_all_nodup (xs : list K) s : NoDup s -> NoDup (hs_insert_all eqb xs s).
  Proof.
    unfold hs_insert_all. revert s; induction xs as [|x xs IH]; intros s H; simpl; [exact H|].
    apply IH, hs_insert_nodup, H.
  Qed.
End HashFacts.

(** ** outcome *)
Lemma traverse_ok {A B} (f : A -> outcome B) (g : A -> B) l :
  (forall x, In x l -> f x = Ok (g x)) -> traverse f l = Ok (map g l).
Proof.
  induction l as [|x l IH]; intros H; simpl; [reflexivity|].
  rewrite H by (left; reflexivity). simpl. rewrite IH by (intros y Hy; apply H; right; exact Hy).
  reflexivity.
Qed.

Lemma traverse_Ok_inv {A B} (f : A -> outcome B) l ys :
  traverse f l = Ok ys <-> Forall2 (fun x y => f x = Ok y) l ys.
Proof.
  revert ys; induction l as [|x l IH]; intros ys; simpl.
  - split; [intros H; inversion H; constructor|intros H; inversion H; reflexivity].
  - destruct (f x) eqn:E; simpl.
    + destruct (traverse f l) eqn:E2; simpl.
      * split.
        { intros H; inversion H; subst. constructor; [exact E|]. apply IH. reflexivity. }
        { intros H; inversion H as [|? y ? ys' H1 H2]; subst.
          apply IH in H2. congruence. }
      * split; [discriminate|]. intros H; inversion H as [|? y ? ys' H1 H2]; subst.
        apply IH in H2. congruence.
      * split; [discriminate|]. intros H; inversion H as [|? y ? ys' H1 H2]; subst.
        apply IH in H2. congruence.
    + split; [discriminate|]. intros H; inversion H; congruence.
    + split; [discriminate|]. intros H; inversion H; congruence.
Qed.

Lemma bind_ok {A B} (x : outcome A) (f : A -> outcome B) b :
  bind x f = Ok b <-> exists a, x = Ok a /\ f a = Ok b.
Proof.
  destruct x as [a|e|]; simpl; split.
  - intros H; exists a; auto.
  - intros (a' & H & H'); congruence.
  - discriminate.
  - intros (a' & H & H'); congruence.
  - discriminate.
  - intros (a' & H & H'); congruence.
Qed.
