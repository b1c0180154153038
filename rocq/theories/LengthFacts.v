(** Lemmas for C102. *)
From Verif Require Import Base StrOps Spec BaseFacts LigFacts LengthSpec.

Lemma cut_up_none k s : cut_up k s 0.
Proof. induction s; constructor; assumption. Qed.
Lemma cut_up_app k u s n : cut_up k s n -> cut_up k (u ++ s) n.
Proof. intros H. induction u; cbn [app]; [exact H|]. constructor. assumption. Qed.
(** Leaving out the first characters, not more than the key has, loses one place at most. *)
Lemma cut_up_skip k s n : cut_up k s n -> forall d, d <= length k -> exists n', cut_up k (skipn d s) n' /\ n <= S n'.
Proof.
  induction 1 as [|x s n H IH|s n H IH]; intros d L.
  - exists 0. rewrite skipn_nil. split; [constructor|lia].
  - destruct d as [|d]; [exists n; split; [constructor; exact H|lia]|]. cbn [skipn]. apply IH. lia.
  - exists n. split; [|lia]. rewrite skipn_app. replace (d - length k) with 0 by lia. cbn [skipn]. apply cut_up_app, H.
Qed.
(** If the key does not begin within the first characters they can be left out. *)
Lemma cut_up_clear k u r n : cut_up k (u ++ r) n -> k <> [] -> (forall i, i < length u -> ~ occurs_at k (u ++ r) i) -> cut_up k r n.
Proof.
  revert n. induction u as [|x u IH]; intros n H N F; [exact H|]. cbn [app] in *.
  inversion H as [|y s m H1 E E'|s m H1 E E']; subst.
  - apply IH; [exact H1|exact N|]. intros i L (a & b & Q & A). apply (F (S i)); [cbn [length]; lia|]. exists (x :: a), b. rewrite Q. cbn [length app]. auto.
  - exfalso. apply (F 0); [cbn [length]; lia|]. exists [], s. auto.
Qed.
Lemma most_nil k : k <> [] -> most k [] 0.
Proof.
  intros N. split; [constructor|]. intros m H. inversion H as [| |s n H1 E E']; [lia|]. apply app_eq_nil in E as [E _]. contradiction.
Qed.
Lemma most_hit k s n : k <> [] -> most k s n -> most k (k ++ s) (S n).
Proof.
  intros N [A B]. split; [constructor; exact A|]. intros m H. destruct (cut_up_skip _ _ _ H (length k) (le_n _)) as (m' & H' & L).
  rewrite skipn_app, skipn_all, Nat.sub_diag in H'. cbn [app skipn] in H'. apply B in H'. lia.
Qed.
Lemma most_miss k x s n : ~ prefix_of k (x :: s) -> most k s n -> most k (x :: s) n.
Proof.
  intros N [A B]. split; [constructor; exact A|]. intros m H. inversion H as [|y s' m' H1 E E'|s' m' H1 E E'].
  - apply B, H1.
  - exfalso. apply N. exists s'. symmetry. exact E.
Qed.
Lemma most_other k k' s n : k <> [] -> (forall i, i < length k' -> ~ occurs_at k (k' ++ s) i) -> most k s n -> most k (k' ++ s) n.
Proof.
  intros N F [A B]. split; [apply cut_up_app, A|]. intros m H. apply B. exact (cut_up_clear _ _ _ _ H N F).
Qed.

Definition total (m : list (str * str)) (count : str -> nat) (f : str * str -> nat) : nat :=
  list_sum (map (fun p => count (fst p) * f p) m).
Definition one_more (k : str) (count : str -> nat) (k' : str) : nat := if str_eqb k' k then S (count k') else count k'.
Lemma one_more_same k count : one_more k count k = S (count k).
Proof. unfold one_more. rewrite (proj2 (str_eqb_eq k k) eq_refl). reflexivity. Qed.
Lemma one_more_other k count k' : k' <> k -> one_more k count k' = count k'.
Proof. unfold one_more. intros N. destruct (str_eqb k' k) eqn:E; [apply str_eqb_eq in E; contradiction|reflexivity]. Qed.
Lemma total_other m count f k : ~ In k (map fst m) -> total m (one_more k count) f = total m count f.
Proof.
  unfold total. induction m as [|p m IH]; intros N; [reflexivity|]. cbn [map list_sum fold_right] in *. rewrite one_more_other by (intros E; apply N; left; exact E).
  f_equal. apply IH. intros I. apply N. right. exact I.
Qed.
Lemma total_hit m count f k v : NoDup (map fst m) -> In (k, v) m -> total m (one_more k count) f = total m count f + f (k, v).
Proof.
  induction m as [|p m IH]; intros D I; [destruct I|]. cbn [map] in D. inversion D as [|? ? D1 D2]; subst.
  change (one_more k count (fst p) * f p + total m (one_more k count) f = count (fst p) * f p + total m count f + f (k, v)).
  destruct I as [->|I].
  - cbn [fst] in *. rewrite one_more_same, total_other by exact D1. lia.
  - rewrite one_more_other, IH by (assumption || (intros E; apply D1; rewrite E; apply in_map_iff; exists (k, v); auto)). lia.
Qed.
Lemma total_zero m f : total m (fun _ => 0) f = 0.
Proof. unfold total. induction m as [|p m IH]; [reflexivity|]. exact IH. Qed.
Lemma replaced_lengths m s out : NoDup (map fst m) -> non_interfering m -> replaced (rules m) s out ->
  exists count, (forall k v, In (k, v) m -> most k s (count k)) /\
    length out + total m count (fun p => length (fst p)) = length s + total m count (fun p => length (snd p)).
Proof.
  intros D (N1 & N2 & _) H. induction H as [|k v s out Nk Hk H (count & C & L)|x s out M H (count & C & L)].
  - exists (fun _ => 0). rewrite !total_zero. split; [|reflexivity]. intros k v I. apply most_nil, (N1 k v I).
  - exists (one_more k count). split.
    + intros k' v' I. destruct (list_eq_dec N.eq_dec k' k) as [->|E].
      * rewrite one_more_same. apply most_hit; [exact Nk|exact (C _ _ I)].
      * rewrite one_more_other by exact E. apply most_other; [apply (N1 _ _ I)| |exact (C _ _ I)].
        intros i Li O. assert (O' : occurs_at k (k ++ s) 0) by (exists [], s; auto).
        pose proof (N2 _ _ _ _ I Hk E _ _ _ O O') as Q. destruct (N1 _ _ I) as [Ne _]. destruct k'; [contradiction|]. cbn [length] in *. lia.
    + rewrite !(total_hit _ _ _ k v) by assumption. cbn [fst snd]. rewrite !app_length. lia.
  - exists count. split; [|cbn [length]; lia]. intros k v I. apply most_miss; [exact (M k v I)|exact (C _ _ I)].
Qed.
Lemma most_unique k s n m : most k s n -> most k s m -> n = m.
Proof. intros [A B] [C D]. apply B in C. apply D in A. lia. Qed.

(** ** Bounds *)
Lemma replaced_bound (R : str -> str -> Prop) V s out : 1 <= V -> (forall k v, R k v -> length v <= V) -> replaced R s out -> length out <= length s * V.
Proof.
  intros LV HV H. induction H as [|k v s out Nk Hk H IH|x s out M H IH]; cbn [length]; [lia| |lia].
  rewrite !app_length. pose proof (HV k v Hk). destruct k as [|c k]; [contradiction|]. cbn [length]. nia.
Qed.
Lemma turn_bound V : 1 <= V -> forall l s, (forall k v, In (k, v) l -> k <> [] /\ length v <= V) ->
  length (fold_left (fun text ft => replace (fst ft) (snd ft) text) l s) <= length s * V ^ length l.
Proof.
  intros LV. induction l as [|[k v] l IH]; intros s H; cbn [fold_left length Nat.pow fst snd]; [lia|].
  destruct (H k v (or_introl eq_refl)) as [N Lv]. eapply Nat.le_trans; [apply IH; intros k' v' I; apply H; right; exact I|].
  assert (Q : length (replace k v s) <= length s * V).
  { apply (replaced_bound (one k v)); [exact LV| |apply (proj1 (replace_spec k v s _ N) eq_refl)]. intros k' v' [-> ->]. exact Lv. }
  rewrite Nat.mul_assoc. apply Nat.mul_le_mono_r, Q.
Qed.
