(** UTF-8: injectivity, order, search and replace (C53); order of positions (C55). *)
From Coq Require Import Permutation.
From Verif Require Import Base BaseFacts Utf8 StrOps Position Converter Spec ConverterFacts ConverterProps LigFacts.

(** ** Encoding of one character *)
Lemma scalar_max c : is_scalar c = true -> (c < 0x110000)%N.
Proof. unfold is_scalar. rewrite orb_true_iff, andb_true_iff, !N.ltb_lt, N.leb_le. intros [H|[_ H]]; lia. Qed.
Ltac enc_cases := repeat match goal with |- context [N.ltb ?a ?b] => destruct (N.ltb_spec a b) end.
Lemma dm c : (c = 64 * (c / 64) + c mod 64 /\ c mod 64 < 64)%N.
Proof. split; [apply N.div_mod'|apply N.mod_lt; discriminate]. Qed.
Lemma dd64 c : (c / 4096 = c / 64 / 64)%N.
Proof. rewrite N.div_div by discriminate. reflexivity. Qed.
Lemma dd4096 c : (c / 262144 = c / 64 / 64 / 64)%N.
Proof. rewrite !N.div_div by discriminate. reflexivity. Qed.
(** Two encodings of different characters part at some byte, the smaller character having the smaller byte. *)
Lemma enc_lt c d : (c < d)%N -> (d < 0x110000)%N ->
  exists p x r y r', encode_char c = p ++ x :: r /\ encode_char d = p ++ y :: r' /\ (x < y)%N.
Proof.
  intros L M. unfold encode_char. rewrite !dd4096, !dd64.
  pose proof (dm c) as [c1 c2]. pose proof (dm (c / 64)) as [c3 c4]. pose proof (dm (c / 64 / 64)) as [c5 c6].
  pose proof (dm d) as [d1 d2]. pose proof (dm (d / 64)) as [d3 d4]. pose proof (dm (d / 64 / 64)) as [d5 d6].
  set (a0 := (c mod 64)%N) in *. set (a1 := ((c / 64) mod 64)%N) in *. set (a2 := ((c / 64 / 64) mod 64)%N) in *.
  set (b0 := (d mod 64)%N) in *. set (b1 := ((d / 64) mod 64)%N) in *. set (b2 := ((d / 64 / 64) mod 64)%N) in *.
  set (h1 := (c / 64)%N) in *. set (h2 := (h1 / 64)%N) in *. set (h3 := (h2 / 64)%N) in *.
  set (k1 := (d / 64)%N) in *. set (k2 := (k1 / 64)%N) in *. set (k3 := (k2 / 64)%N) in *.
  clearbody a0 a1 a2 b0 b1 b2 h1 h2 h3 k1 k2 k3.
  enc_cases; try lia;
  try (exists []; do 4 eexists; split; [reflexivity|]; split; [reflexivity|]; lia).
  - destruct (N.eq_dec h1 k1) as [->|]; [|exists []; do 4 eexists; split; [reflexivity|]; split; [reflexivity|]; lia].
    exists [0xC0 + k1]%N. do 4 eexists; split; [reflexivity|]; split; [reflexivity|]; lia.
  - destruct (N.eq_dec h2 k2) as [->|]; [|exists []; do 4 eexists; split; [reflexivity|]; split; [reflexivity|]; lia].
    destruct (N.eq_dec a1 b1) as [->|]; [|exists [0xE0 + k2]%N; do 4 eexists; split; [reflexivity|]; split; [reflexivity|]; lia].
    exists [0xE0 + k2; 0x80 + b1]%N. do 4 eexists; split; [reflexivity|]; split; [reflexivity|]; lia.
  - destruct (N.eq_dec h3 k3) as [->|]; [|exists []; do 4 eexists; split; [reflexivity|]; split; [reflexivity|]; lia].
    destruct (N.eq_dec a2 b2) as [->|]; [|exists [0xF0 + k3]%N; do 4 eexists; split; [reflexivity|]; split; [reflexivity|]; lia].
    destruct (N.eq_dec a1 b1) as [->|]; [|exists [0xF0 + k3; 0x80 + b2]%N; do 4 eexists; split; [reflexivity|]; split; [reflexivity|]; lia].
    exists [0xF0 + k3; 0x80 + b2; 0x80 + b1]%N. do 4 eexists; split; [reflexivity|]; split; [reflexivity|]; lia.
Qed.
Lemma enc_nonempty c : encode_char c <> [].
Proof. unfold encode_char. enc_cases; discriminate. Qed.
Definition continuation (b : N) : Prop := (0x80 <= b < 0xC0)%N.
Lemma enc_shape c : exists h t, encode_char c = h :: t /\ ~ continuation h /\ Forall continuation t.
Proof.
  assert (K : forall x, continuation (0x80 + x mod 64)).
  { intros x. pose proof (dm x) as [_ H]. unfold continuation. revert H. generalize (x mod 64)%N. intros y H. lia. }
  unfold encode_char. enc_cases; do 2 eexists; (split; [reflexivity|]); (split; [unfold continuation; repeat match goal with |- context [N.div ?a ?b] => generalize (N.div a b); intro end; lia|]); repeat constructor; apply K.
Qed.
Lemma app_part {A} (p : list A) x r y r' a b : (p ++ x :: r) ++ a = (p ++ y :: r') ++ b -> x = y.
Proof. rewrite <- !app_assoc. intros H. apply app_inv_head in H. injection H as H _. exact H. Qed.
Lemma enc_app_inj c d a b : is_scalar c = true -> is_scalar d = true ->
  encode_char c ++ a = encode_char d ++ b -> c = d /\ a = b.
Proof.
  intros Hc Hd H. apply scalar_max in Hc. apply scalar_max in Hd. destruct (N.lt_trichotomy c d) as [L|[->|L]].
  - destruct (enc_lt c d L Hd) as (p & x & r & y & r' & E1 & E2 & X). rewrite E1, E2 in H. apply app_part in H. lia.
  - apply app_inv_head in H. auto.
  - destruct (enc_lt d c L Hc) as (p & x & r & y & r' & E1 & E2 & X). rewrite E1, E2 in H. apply app_part in H. lia.
Qed.

(** ** Texts *)
Lemma encode_cons c s : encode (c :: s) = encode_char c ++ encode s.
Proof. reflexivity. Qed.
Lemma encode_inj s t : valid_str s -> valid_str t -> encode s = encode t -> s = t.
Proof.
  intros Hs. revert t; induction Hs as [|c s Hc Hs IH]; intros t Ht E; destruct Ht as [|d t Hd Ht].
  - reflexivity.
  - rewrite encode_cons in E. symmetry in E. apply app_eq_nil in E as [E _]. destruct (enc_nonempty d E).
  - rewrite encode_cons in E. apply app_eq_nil in E as [E _]. destruct (enc_nonempty c E).
  - rewrite !encode_cons in E. apply enc_app_inj in E as [-> E]; [|assumption..]. f_equal. apply IH; assumption.
Qed.
Lemma lex_app p a b : lex_lt a b -> lex_lt (p ++ a) (p ++ b).
Proof. intros H. induction p; cbn; [exact H|apply lex_tail; assumption]. Qed.
Lemma lex_irrefl s : ~ lex_lt s s.
Proof. induction s as [|x s IH]; intros H; inversion H; subst; [lia|auto]. Qed.
Lemma lex_asym s t : lex_lt s t -> ~ lex_lt t s.
Proof.
  intros H. induction H as [x b|x y a b L|x a b L IH]; intros G; inversion G; subst; try lia; auto.
Qed.
Lemma lex_total s t : lex_lt s t \/ s = t \/ lex_lt t s.
Proof.
  revert t; induction s as [|x s IH]; intros [|y t].
  - auto.
  - left; constructor.
  - right; right; constructor.
  - destruct (N.lt_trichotomy x y) as [L|[->|L]]; [left; constructor; exact L| |right; right; constructor; exact L].
    destruct (IH t) as [H|[->|H]]; [left; constructor; exact H|auto|right; right; constructor; exact H].
Qed.
Lemma encode_lt s t : valid_str t -> lex_lt s t -> lex_lt (encode s) (encode t).
Proof.
  intros V H. induction H as [x b|x y a b L|x a b L IH]; inversion V; subst.
  - rewrite encode_cons. destruct (enc_shape x) as (h & r & -> & _). cbn. constructor.
  - rewrite !encode_cons. destruct (enc_lt x y L) as (p & u & r & v & r' & -> & -> & X); [apply scalar_max; assumption|].
    rewrite <- !app_assoc. apply lex_app. cbn. constructor. exact X.
  - rewrite !encode_cons. apply lex_app, IH. assumption.
Qed.
Lemma encode_lt_iff s t : valid_str s -> valid_str t -> (lex_lt s t <-> lex_lt (encode s) (encode t)).
Proof.
  intros Vs Vt. split; [apply encode_lt; exact Vt|]. intros H. destruct (lex_total s t) as [G|[->|G]]; [exact G| |].
  - destruct (lex_irrefl _ H).
  - apply encode_lt in G; [|exact Vs]. destruct (lex_asym _ _ H G).
Qed.
Lemma valid_app a b : valid_str (a ++ b) <-> valid_str a /\ valid_str b.
Proof. apply Forall_app. Qed.
(** Bytes of a text that start with the bytes of another do so at a character boundary. *)
Lemma encode_prefix p s rest : valid_str p -> valid_str s -> encode s = encode p ++ rest ->
  exists r, s = p ++ r /\ rest = encode r.
Proof.
  intros Vp. revert s; induction Vp as [|c p Hc Hp IH]; intros s Vs E.
  - exists s. auto.
  - destruct Vs as [|d s Hd Hs].
    + cbn [encode flat_map] in E. symmetry in E. apply app_eq_nil in E as [E _]. apply app_eq_nil in E as [E _]. destruct (enc_nonempty c E).
    + rewrite !encode_cons, <- app_assoc in E. apply enc_app_inj in E as [-> E]; [|assumption..].
      destruct (IH s Hs E) as (r & -> & ->). exists r. auto.
Qed.
Lemma prefix_encode p s : valid_str p -> valid_str s -> (prefix_of p s <-> prefix_of (encode p) (encode s)).
Proof.
  intros Vp Vs. split.
  - intros (r & ->). exists (encode r). apply encode_app.
  - intros (r & E). destruct (encode_prefix p s r Vp Vs E) as (q & -> & _). exists q. reflexivity.
Qed.
(** A non-empty encoded pattern starts with a byte that no character has inside. *)
Lemma miss_tail p v t s out : p <> [] -> Forall continuation t -> replaced (one (encode p) v) s out -> replaced (one (encode p) v) (t ++ s) (t ++ out).
Proof.
  intros Hp Ht R. induction Ht as [|b t Hb Ht IH]; [exact R|]. cbn [app]. apply rep_miss; [|exact IH].
  intros k w [-> _] (q & E). destruct p as [|c p]; [contradiction|]. rewrite encode_cons in E.
  destruct (enc_shape c) as (h & r & Eh & Nh & _). rewrite Eh in E. cbn in E. injection E as -> _. contradiction.
Qed.
Lemma encode_nonempty p : p <> [] -> encode p <> [].
Proof. destruct p as [|c p]; [contradiction|]. intros _ E. rewrite encode_cons in E. apply app_eq_nil in E as [E _]. exact (enc_nonempty c E). Qed.
Lemma replaced_encode p v s out : p <> [] -> valid_str p -> valid_str s ->
  replaced (one p v) s out -> replaced (one (encode p) (encode v)) (encode s) (encode out).
Proof.
  intros Hp Vp Vs R. induction R as [|k w s out Hk [-> ->] R IH|x s out Hm R IH].
  - constructor.
  - apply valid_app in Vs as [_ Vs]. rewrite !encode_app. apply rep_hit; [apply encode_nonempty, Hp|split; reflexivity|apply IH, Vs].
  - inversion Vs; subst. rewrite !encode_cons. destruct (enc_shape x) as (h & t & Eh & _ & Ht). 
    assert (N : ~ prefix_of (encode p) (encode (x :: s))).
    { rewrite <- prefix_encode by (try constructor; assumption). apply (Hm p v). split; reflexivity. }
    rewrite encode_cons, Eh in N. rewrite Eh. cbn [app] in *. apply rep_miss.
    + intros k w [-> _]. exact N.
    + apply miss_tail; [exact Hp|exact Ht|]. apply IH. assumption.
Qed.
Lemma replaced_encode_iff p v s b : p <> [] -> valid_str p -> valid_str s ->
  (replaced (one (encode p) (encode v)) (encode s) b <-> exists out, b = encode out /\ replaced (one p v) s out).
Proof.
  intros Hp Vp Vs. split.
  - intros R. exists (replace p v s). assert (R0 : replaced (one p v) s (replace p v s)) by (apply replace_spec; [exact Hp|reflexivity]).
    split; [|exact R0]. pose proof (replaced_encode p v s _ Hp Vp Vs R0) as R1. pose proof (encode_nonempty p Hp) as Hp'.
    apply (replace_spec (encode p)) in R; [|exact Hp']. apply (replace_spec (encode p)) in R1; [|exact Hp']. congruence.
  - intros (out & -> & R). apply replaced_encode; assumption.
Qed.
Lemma char_indices_nth s i c : nth_error s i = Some c -> nth_error (char_indices s) i = Some (length (encode (firstn i s)), c).
Proof.
  unfold char_indices. rewrite encode_length.
  cut (forall b, nth_error s i = Some c -> nth_error (char_indices_from b s) i = Some (b + blen (firstn i s), c)); [intros H; exact (H 0)|].
  revert i; induction s as [|x s IH]; intros [|i] b; cbn [nth_error char_indices_from firstn]; try discriminate.
  - intros H. injection H as ->. cbn. rewrite Nat.add_0_r. reflexivity.
  - intros H. rewrite (IH i (b + len_utf8 x) H). unfold blen. cbn [fold_right]. rewrite Nat.add_assoc. reflexivity.
Qed.

(** ** Sorting positions *)
Lemma pos_insert_perm x l : Permutation (pos_insert x l) (x :: l).
Proof.
  induction l as [|y l IH]; cbn [pos_insert]; [reflexivity|]. destruct (position_cmp x y); try reflexivity.
  rewrite IH. apply perm_swap.
Qed.
Lemma sort_positions_perm l : Permutation (sort_positions l) l.
Proof. induction l as [|x l IH]; [reflexivity|]. cbn [sort_positions fold_right]. change (fold_right pos_insert [] l) with (sort_positions l). rewrite pos_insert_perm, IH. reflexivity. Qed.
Definition index_lt (a b : position) : Prop := p_index a < p_index b.
Lemma pos_insert_ordered x l : ordered index_lt l -> ~ In (p_index x) (map p_index l) -> ordered index_lt (pos_insert x l).
Proof.
  induction l as [|y l IH]; intros S N; cbn [pos_insert]; [split; [constructor|exact I]|].
  destruct S as [S1 S2]. unfold position_cmp. destruct (Nat.compare_spec (p_index x) (p_index y)) as [E|L|L].
  - destruct N. left. congruence.
  - split; [|split; assumption]. constructor; [exact L|]. eapply Forall_impl; [|exact S1]. unfold index_lt. intros z Hz. lia.
  - split; [|apply IH; [exact S2|intros H; apply N; right; exact H]].
    rewrite pos_insert_perm. constructor; [exact L|exact S1].
Qed.
Lemma sort_positions_ordered l : NoDup (map p_index l) -> ordered index_lt (sort_positions l).
Proof.
  induction l as [|x l IH]; intros N; [exact I|]. inversion N; subst. cbn [sort_positions fold_right]. apply pos_insert_ordered; [apply IH; assumption|].
  change (fold_right pos_insert [] l) with (sort_positions l). rewrite sort_positions_perm. assumption.
Qed.
Lemma ordered_unique l l' : ordered index_lt l -> ordered index_lt l' -> Permutation l l' -> l = l'.
Proof.
  revert l'; induction l as [|x l IH]; intros l' S S' P.
  - apply Permutation_nil in P. symmetry. exact P.
  - destruct l' as [|y l']; [symmetry in P; apply Permutation_nil in P; discriminate|].
    destruct S as [S1 S2], S' as [S1' S2']. assert (E : x = y).
    { assert (H1 : In x (y :: l')) by (rewrite <- P; left; reflexivity).
      assert (H2 : In y (x :: l)) by (rewrite P; left; reflexivity).
      destruct H1 as [|H1]; [congruence|]. destruct H2 as [|H2]; [congruence|].
      rewrite Forall_forall in S1, S1'. specialize (S1 y H2). specialize (S1' x H1). unfold index_lt in *. lia. }
    subst y. f_equal. apply IH; [assumption..|]. apply Permutation_cons_inv with x. exact P.
Qed.
