(** The reader of YamlText.v reads nothing but the texts of YamlSpec.v. *)
From Coq Require Import String.
From Verif Require Import Base StrOps Yaml File YamlText BaseFacts SimpleFacts ParseProps YamlTextFacts YamlSpec YamlScalars.
Local Open Scope string_scope.
Local Open Scope list_scope.

(** ** Quotation marks *)
Lemma unescape_in e x : unescape e = Some x -> In (e, x) escapes.
Proof.
  unfold unescape, QUOT, BACKSLASH. change escapes with [(0x22, 0x22); (0x5C, 0x5C); (0x62, 0x08); (0x74, 0x09); (0x6E, 0x0A); (0x66, 0x0C); (0x72, 0x0D)]%N.
  repeat match goal with |- (if N.eqb e ?n then _ else _) = _ -> _ => destruct (N.eqb_spec e n) as [->|_]; [intros Q; injection Q as <-; cbn [In]; tauto|] end. discriminate.
Qed.
Lemma hex_found d a : hex_value d = Some a -> hex d (N.to_nat a).
Proof.
  unfold hex_value, is_digit. intros H. assert (B : (0x30 <= d <= 0x39 \/ 0x61 <= d <= 0x66 \/ 0x41 <= d <= 0x46)%N).
  { destruct (N.leb 0x30 d && N.leb d 0x39)%bool eqn:E1; [rewrite andb_true_iff, !N.leb_le in E1; auto|]. destruct (N.leb 0x61 d && N.leb d 0x66)%bool eqn:E2; [rewrite andb_true_iff, !N.leb_le in E2; auto|].
    destruct (N.leb 0x41 d && N.leb d 0x46)%bool eqn:E3; [rewrite andb_true_iff, !N.leb_le in E3; auto|discriminate H]. }
  assert (Q : forallb (fun n => match hex_value (N.of_nat n) with Some a => (match nth_error (lit "0123456789abcdef") (N.to_nat a) with Some x => N.eqb x (N.of_nat n) | None => false end || match nth_error (lit "0123456789ABCDEF") (N.to_nat a) with Some x => N.eqb x (N.of_nat n) | None => false end)%bool | None => false end)
    (seq 0x30 10 ++ seq 0x41 6 ++ seq 0x61 6) = true) by (vm_compute; reflexivity).
  rewrite forallb_forall in Q. specialize (Q (N.to_nat d)). cbv beta in Q. rewrite N2Nat.id in Q. fold (is_digit d) in H. change (hex_value d = Some a) in H. rewrite H in Q.
  assert (I : In (N.to_nat d) (seq 0x30 10 ++ seq 0x41 6 ++ seq 0x61 6)) by (clear -B; unfold char in *; apply in_or_app; destruct B as [B|B]; [left; apply List.in_seq; lia|right; apply in_or_app; destruct B as [B|B]; [right; apply List.in_seq; lia|left; apply List.in_seq; lia]]). specialize (Q I). unfold hex.
  destruct (nth_error (lit "0123456789abcdef") (N.to_nat a)) as [x|] eqn:E1.
  - destruct (N.eqb_spec x d) as [->|_]; [auto|]. cbn [orb] in Q. right. destruct (nth_error (lit "0123456789ABCDEF") (N.to_nat a)) as [y|]; [|discriminate Q]. apply N.eqb_eq in Q. congruence.
  - cbn [orb] in Q. right. destruct (nth_error (lit "0123456789ABCDEF") (N.to_nat a)) as [y|]; [|discriminate Q]. apply N.eqb_eq in Q. congruence.
Qed.
Lemma cons_to_some c x s r : cons_to c x = Some (s, r) -> exists s', s = c :: s' /\ x = Some (s', r).
Proof. unfold cons_to. destruct x as [[s' r']|]; [|discriminate]. intros H. injection H as <- <-. eauto. Qed.
Lemma quoted_sound : forall n r x rest, List.length r <= n -> read_quoted r = Some (x, rest) -> exists b, r = b ++ [0x22%N] ++ rest /\ quoted b x.
Proof.
  induction n as [|n IH]; intros r x rest L H; (destruct r as [|c r]; [discriminate H|]); [cbn in L; lia|]. cbn [List.length] in L. cbn [read_quoted] in H.
  destruct (N.eqb_spec c QUOT) as [->|N1]; [injection H as <- <-; exists []; split; [reflexivity|constructor]|]. destruct (N.eqb_spec c BACKSLASH) as [->|N2].
  - destruct r as [|e r1]; [discriminate H|]. cbn [List.length] in L. destruct (unescape e) as [y|] eqn:U.
    + apply cons_to_some in H as (s & -> & H). destruct (IH r1 s rest ltac:(lia) H) as (b & -> & Q). exists (lit "\" ++ [e] ++ b). split; [reflexivity|]. apply q_escape; [apply unescape_in, U|exact Q].
    + destruct (N.eqb_spec e 0x75) as [->|]; [|discriminate H]. destruct r1 as [|h1 [|h2 [|h3 [|h4 r5]]]]; try discriminate H. cbn [List.length] in L.
      destruct (hex_value h1) as [a1|] eqn:H1; [|discriminate H]. destruct (hex_value h2) as [a2|] eqn:H2; [|discriminate H]. destruct (hex_value h3) as [a3|] eqn:H3; [|discriminate H]. destruct (hex_value h4) as [a4|] eqn:H4; [|discriminate H].
      cbn zeta in H. match type of H with (if ?b then _ else _) = _ => destruct b eqn:R; [|discriminate H] end. rewrite orb_true_iff, N.ltb_lt, N.leb_le in R.
      apply cons_to_some in H as (s & -> & H). destruct (IH r5 s rest ltac:(lia) H) as (b & -> & Q). exists (lit "\u" ++ [h1; h2; h3; h4] ++ b). split; [reflexivity|].
      eapply q_code; [apply hex_found, H1|apply hex_found, H2|apply hex_found, H3|apply hex_found, H4|lia|exact R|exact Q].
  - destruct (printable c) eqn:P; [|discriminate H]. apply cons_to_some in H as (s & -> & H). destruct (IH r s rest ltac:(lia) H) as (b & -> & Q). exists (c :: b). split; [reflexivity|]. apply q_char; [|exact Q].
    split; [apply printable_iff, P|]. split; assumption.
Qed.
Lemma single_sound : forall n r x rest, List.length r <= n -> read_single r = Some (x, rest) -> exists b, r = b ++ [0x27%N] ++ rest /\ single b x.
Proof.
  induction n as [|n IH]; intros r x rest L H; (destruct r as [|c r]; [discriminate H|]); [cbn in L; lia|]. cbn [List.length] in L. cbn [read_single] in H.
  destruct (N.eqb_spec c APOSTROPHE) as [->|N1].
  - destruct r as [|d r']; [injection H as <- <-; exists []; split; [reflexivity|constructor]|]. cbn [List.length] in L. destruct (N.eqb_spec d APOSTROPHE) as [->|N2].
    + apply cons_to_some in H as (s & -> & H). destruct (IH r' s rest ltac:(lia) H) as (b & -> & Q). exists (lit "''" ++ b). split; [reflexivity|]. apply s_mark, Q.
    + injection H as <- <-. exists []. split; [reflexivity|constructor].
  - destruct (printable c) eqn:P; [|discriminate H]. apply cons_to_some in H as (s & -> & H). destruct (IH r s rest ltac:(lia) H) as (b & -> & Q). exists (c :: b). split; [reflexivity|]. apply s_char; [apply printable_iff, P|exact N1|exact Q].
Qed.
Lemma quoted_is b s : quoted b s -> scalar_is ([0x22%N] ++ b ++ [0x22%N]) (YStr s).
Proof. intros H. apply sc_text. left. eauto. Qed.
Lemma single_is b s : single b s -> scalar_is ([0x27%N] ++ b ++ [0x27%N]) (YStr s).
Proof. intros H. apply sc_text. right. left. eauto. Qed.
Lemma read_scalar_sound s v : read_scalar s = Some v -> scalar_is s v.
Proof.
  unfold read_scalar. destruct s as [|c r]; [discriminate|]. destruct (N.eqb_spec c QUOT) as [->|_].
  - destruct (read_quoted r) as [[x [|y z]]|] eqn:R; try discriminate. intros H. injection H as <-. destruct (quoted_sound _ r x [] (le_n _) R) as (b & -> & Q). apply (quoted_is b x Q).
  - destruct (N.eqb_spec c APOSTROPHE) as [->|_]; [|apply read_plain_scalar]. destruct (read_single r) as [[x [|y z]]|] eqn:R; try discriminate. intros H. injection H as <-. destruct (single_sound _ r x [] (le_n _) R) as (b & -> & Q). apply (single_is b x Q).
Qed.

(** ** One line *)
Lemma skip_spaces_parts s : exists j, s = spaces j ++ skip_spaces s /\ hd_error (skip_spaces s) <> Some SPACE.
Proof. destruct (trim_start_spec SPACE s) as (j & E & H). exists j. split; assumption. Qed.
Lemma trim_parts s : exists j, s = trim_end_matches SPACE s ++ spaces j /\ hd_error (rev (trim_end_matches SPACE s)) <> Some SPACE.
Proof. destruct (trim_end_spec SPACE s) as (j & E & H). exists j. split; assumption. Qed.
Lemma cut_flow_parts s : s = fst (cut_flow s) ++ snd (cut_flow s) /\ ~ In 0x3F%N (fst (cut_flow s)).
Proof.
  induction s as [|c s [E N]]; [split; [reflexivity|intros []]|]. cbn [cut_flow]. destruct (in_text ",[]{}:?" c) eqn:Q; [split; [reflexivity|intros []]|]. destruct (cut_flow s) as [x y]. cbn [fst snd] in *. split; [cbn [app]; f_equal; exact E|].
  intros [->|I]; [discriminate Q|exact (N I)].
Qed.
Lemma flow_scalar_sound s v rest : flow_scalar s = Some (v, rest) -> exists t j, s = t ++ spaces j ++ rest /\ scalar_is t v /\ fits t.
Proof.
  unfold flow_scalar. destruct s as [|c r]; [discriminate|]. destruct (N.eqb_spec c QUOT) as [->|_]; [|destruct (N.eqb_spec c APOSTROPHE) as [->|_]].
  - destruct (read_quoted r) as [[x y]|] eqn:R; [|discriminate]. intros H. injection H as <- <-. destruct (quoted_sound _ r x y (le_n _) R) as (b & -> & Q). destruct (skip_spaces_parts y) as (j & E & _).
    exists ([0x22%N] ++ b ++ [0x22%N]), j. split; [rewrite E at 1; rewrite <- !app_assoc; reflexivity|]. split; [apply quoted_is, Q|]. left. exists 0x22%N, (b ++ [0x22%N]). split; [reflexivity|]. vm_compute. tauto.
  - destruct (read_single r) as [[x y]|] eqn:R; [|discriminate]. intros H. injection H as <- <-. destruct (single_sound _ r x y (le_n _) R) as (b & -> & Q). destruct (skip_spaces_parts y) as (j & E & _).
    exists ([0x27%N] ++ b ++ [0x27%N]), j. split; [rewrite E at 1; rewrite <- !app_assoc; reflexivity|]. split; [apply single_is, Q|]. left. exists 0x27%N, (b ++ [0x27%N]). split; [reflexivity|]. vm_compute. tauto.
  - destruct (cut_flow_parts (c :: r)) as [E N]. destruct (cut_flow (c :: r)) as [x y]. cbn [fst snd] in *. destruct (read_plain (trim_end_matches SPACE x)) as [w|] eqn:R; [|discriminate]. intros H. injection H as <- <-.
    destruct (trim_parts x) as (j & T & _). exists (trim_end_matches SPACE x), j. split; [rewrite E, T at 1; rewrite <- app_assoc; reflexivity|]. split; [apply read_plain_scalar, R|].
    right. intros I. apply N. rewrite T. apply in_app_iff. left. exact I.
Qed.
Lemma fresh_apart k seen : fresh k seen = true -> ~ In (key_text k) (map key_text seen).
Proof.
  intros H I. apply in_map_iff in I as (x & E & I). unfold fresh in H.
  assert (A : forall s, k = YStr s -> False).
  { intros s ->. apply negb_true_iff in H. apply not_true_iff_false in H. apply H. apply existsb_exists. exists x. split; [exact I|]. destruct x; try discriminate E. cbn [key_text] in E. injection E as ->. apply str_eqb_eq. reflexivity. }
  assert (B : key_text k = None) by (destruct k; [reflexivity|reflexivity|reflexivity|destruct (A _ eq_refl)|reflexivity|reflexivity] || (destruct k; try reflexivity; destruct (A _ eq_refl))).
  destruct k; try (rewrite forallb_forall in H; specialize (H x I); rewrite B in E; destruct x; discriminate || discriminate E). destruct (A _ eq_refl).
Qed.
Lemma listed_spaces i t vs : listed_in t vs -> listed_in (spaces i ++ t) vs.
Proof.
  intros H. unfold spaces. destruct H as [k t v j A B|k t v j r vs A B C]; rewrite app_assoc; unfold spaces at 1; rewrite <- repeat_app; [exact (li_last (i + k) t v j A B)|exact (li_more (i + k) t v j r vs A B C)].
Qed.
Lemma paired_spaces i t kvs : paired_in t kvs -> paired_in (spaces i ++ t) kvs.
Proof.
  intros H. unfold spaces. destruct H as [n K k q m V v j A B C D E|n K k q m V v j r kvs A B C D E F]; rewrite app_assoc; unfold spaces at 1; rewrite <- repeat_app; [exact (pi_last (i + n) K k q m V v j A B C D E)|exact (pi_more (i + n) K k q m V v j r kvs A B C D E F)].
Qed.
Definition separate (seen : list yval) (kvs : list (yval * yval)) : Prop := NoDup (map key_text (map fst kvs)) /\ forall k, In k (map key_text (map fst kvs)) -> ~ In k (map key_text seen).
Lemma separate_cons seen k v kvs : fresh k seen = true -> separate (k :: seen) kvs -> separate seen ((k, v) :: kvs).
Proof.
  intros F [N S]. apply fresh_apart in F. split; cbn [map fst].
  - constructor; [|exact N]. intros I. apply (S _ I). left. reflexivity.
  - intros x [<-|I]; [exact F|]. intros J. apply (S x I). right. exact J.
Qed.
Lemma flow_sound : forall f,
  (forall s v rest, read_flow f s = Some (v, rest) -> exists t j, s = t ++ spaces j ++ rest /\ inline_is t v /\ fits t) /\
  (forall s vs rest, flow_elements f s = Some (vs, rest) -> exists t j, s = t ++ lit "]" ++ spaces j ++ rest /\ listed_in t vs) /\
  (forall seen s kvs rest, flow_pairs f seen s = Some (kvs, rest) -> exists t j, s = t ++ lit "}" ++ spaces j ++ rest /\ paired_in t kvs /\ separate seen kvs).
Proof.
  induction f as [|f (IH1 & IH2 & IH3)]; [repeat split; intros; discriminate|]. split; [|split].
  - intros s v rest H. destruct s as [|c r]; [discriminate H|]. cbn [read_flow] in H. destruct (N.eqb_spec c LBRACKET) as [->|_]; [|destruct (N.eqb_spec c LBRACE) as [->|_]].
    + destruct (skip_spaces_parts r) as (i & E & _). destruct (skip_spaces r) as [|d y]; [discriminate H|]. destruct (N.eqb_spec d RBRACKET) as [->|_].
      * injection H as <- <-. destruct (skip_spaces_parts y) as (j & E2 & _). exists (lit "[" ++ spaces i ++ lit "]"), j. split; [rewrite E, E2 at 1; rewrite <- !app_assoc; reflexivity|]. split; [apply in_no_seq|]. left. exists LBRACKET. eexists. split; [reflexivity|]. vm_compute. tauto.
      * destruct (flow_elements f (d :: y)) as [[vs z]|] eqn:R; [|discriminate H]. injection H as <- <-. apply IH2 in R as (t & j & E2 & L). exists (lit "[" ++ (spaces i ++ t) ++ lit "]"), j. split; [rewrite E, E2; rewrite <- !app_assoc; reflexivity|].
        split; [apply in_seq, listed_spaces, L|]. left. exists LBRACKET. eexists. split; [reflexivity|]. vm_compute. tauto.
    + destruct (skip_spaces_parts r) as (i & E & _). destruct (skip_spaces r) as [|d y]; [discriminate H|]. destruct (N.eqb_spec d RBRACE) as [->|_].
      * injection H as <- <-. destruct (skip_spaces_parts y) as (j & E2 & _). exists (lit "{" ++ spaces i ++ lit "}"), j. split; [rewrite E, E2 at 1; rewrite <- !app_assoc; reflexivity|]. split; [apply in_no_map|]. left. exists LBRACE. eexists. split; [reflexivity|]. vm_compute. tauto.
      * destruct (flow_pairs f [] (d :: y)) as [[kvs z]|] eqn:R; [|discriminate H]. injection H as <- <-. apply IH3 in R as (t & j & E2 & L & N & _). exists (lit "{" ++ (spaces i ++ t) ++ lit "}"), j. split; [rewrite E, E2; rewrite <- !app_assoc; reflexivity|].
        split; [apply in_map; [apply paired_spaces, L|exact N]|]. left. exists LBRACE. eexists. split; [reflexivity|]. vm_compute. tauto.
    + apply flow_scalar_sound in H as (t & j & E & S & F). exists t, j. split; [exact E|]. split; [constructor; exact S|exact F].
  - intros s vs rest H. cbn [flow_elements] in H. destruct (read_flow f s) as [[v [|d r]]|] eqn:R; try discriminate H. apply IH1 in R as (t & j & -> & I & F). destruct (N.eqb_spec d RBRACKET) as [->|_].
    + injection H as <- <-. destruct (skip_spaces_parts r) as (k & E & _). exists (spaces 0 ++ t ++ spaces j), k. split; [rewrite E at 1; cbn [spaces repeat app]; rewrite <- !app_assoc; reflexivity|]. constructor; assumption.
    + destruct (N.eqb_spec d COMMA) as [->|_]; [|discriminate H]. destruct (flow_elements f (skip_spaces r)) as [[ws z]|] eqn:R2; [|discriminate H]. injection H as <- <-. apply IH2 in R2 as (u & k & E2 & L). destruct (skip_spaces_parts r) as (i & E & _).
      exists (spaces 0 ++ t ++ spaces j ++ lit "," ++ (spaces i ++ u)), k. split; [rewrite E, E2; cbn [spaces repeat app]; rewrite <- !app_assoc; reflexivity|]. constructor; [assumption..|]. apply listed_spaces, L.
  - intros seen s kvs rest H. cbn [flow_pairs] in H. destruct (flow_scalar s) as [[k [|d r]]|] eqn:R; try discriminate H. apply flow_scalar_sound in R as (K & q & -> & I & F).
    destruct (N.eqb d COLON && starts_with [SPACE] r && fresh k seen && _)%bool eqn:C in H; [|discriminate H]. rewrite !andb_true_iff, N.eqb_eq, Nat.leb_le in C. destruct C as [[[-> C1] C2] C3].
    assert (Lk : List.length K + q < 1000).
    { unfold spaces in C3. rewrite !app_length, repeat_length in C3. cbn [List.length] in C3. unfold char in *. lia. }
    clear C3. destruct r as [|sp r]; [discriminate C1|]. cbn [starts_with] in C1. rewrite andb_true_r in C1. apply N.eqb_eq in C1. subst sp.
    destruct (skip_spaces_parts r) as (m & E & _). assert (Sk : skip_spaces (SPACE :: r) = skip_spaces r) by reflexivity. rewrite Sk in H.
    destruct (read_flow f (skip_spaces r)) as [[v [|e y]]|] eqn:R2; try discriminate H. apply IH1 in R2 as (V & j & E2 & I2 & F2). rewrite E2 in E. clear E2 Sk. destruct (N.eqb_spec e RBRACE) as [->|_].
    + injection H as <- <-. destruct (skip_spaces_parts y) as (l & E3 & _). exists (spaces 0 ++ K ++ spaces q ++ lit ":" ++ spaces (S m) ++ V ++ spaces j), l.
      split; [rewrite E, E3 at 1; cbn [spaces repeat app]; rewrite <- !app_assoc; cbn [app]; rewrite <- !app_assoc; reflexivity|]. split; [constructor; assumption|]. apply separate_cons; [exact C2|]. split; [constructor|intros ? []].
    + destruct (N.eqb_spec e COMMA) as [->|_]; [|discriminate H]. destruct (flow_pairs f (k :: seen) (skip_spaces y)) as [[ws z]|] eqn:R3; [|discriminate H]. injection H as <- <-. apply IH3 in R3 as (u & l & E3 & P & Sp). destruct (skip_spaces_parts y) as (i & E4 & _). rewrite E3 in E4.
      exists (spaces 0 ++ K ++ spaces q ++ lit ":" ++ spaces (S m) ++ V ++ spaces j ++ lit "," ++ (spaces i ++ u)), l.
      split; [rewrite E, E4; cbn [spaces repeat app]; rewrite <- !app_assoc; cbn [app]; rewrite <- !app_assoc; cbn [app]; rewrite <- ?app_assoc; reflexivity|]. split; [constructor; try assumption; apply paired_spaces, P|]. apply separate_cons; [exact C2|exact Sp].
Qed.
(** A line that does not end with a space. *)
Definition neat (s : str) : Prop := forall a, s <> a ++ [SPACE].
Lemma neat_app a b : neat (a ++ b) -> neat b.
Proof. intros H x E. apply (H (a ++ x)). rewrite E, app_assoc. reflexivity. Qed.
Lemma spaces_end j : spaces (S j) = spaces j ++ [SPACE].
Proof. unfold spaces. induction j as [|j IH]; [reflexivity|]. cbn [repeat app] in *. f_equal. exact IH. Qed.
Lemma neat_spaces a j : neat (a ++ spaces j) -> j = 0.
Proof. intros H. destruct j as [|j]; [reflexivity|]. destruct (H (a ++ spaces j)). rewrite spaces_end, app_assoc. reflexivity. Qed.
Lemma read_inline_sound s v : neat s -> read_inline s = Some v -> inline_is s v.
Proof.
  intros N. unfold read_inline. destruct s as [|c r]; [discriminate|]. destruct (N.eqb c LBRACKET || N.eqb c LBRACE)%bool.
  - destruct (read_flow _ (c :: r)) as [[w [|y z]]|] eqn:R; try discriminate. intros H. injection H as <-. apply flow_sound in R as (t & j & E & I & _). rewrite app_nil_r in E. rewrite E in *. apply neat_spaces in N. subst j. cbn [spaces repeat]. rewrite app_nil_r. exact I.
  - intros H. constructor. apply read_scalar_sound, H.
Qed.
Lemma cut_colon_parts s x r : cut_colon s = Some (x, r) -> s = x ++ [0x3A%N] ++ r.
Proof.
  revert x. induction s as [|c s IH]; intros x H; [discriminate H|]. cbn [cut_colon] in H. destruct (N.eqb_spec c COLON) as [->|_]; [injection H as <- <-; reflexivity|].
  apply cons_to_some in H as (y & -> & H). cbn [app]. f_equal. apply (IH y H).
Qed.
Lemma cut_key_sound s k rest : cut_key s = Some (k, rest) -> exists K, s = K ++ lit ":" ++ rest /\ key_is K k /\ after_colon rest = true.
Proof.
  unfold cut_key. match goal with |- match ?q with _ => _ end = _ -> _ => set (Q := q); assert (A : forall v r, Q = Some (v, r) -> exists K, s = K ++ lit ":" ++ r /\ scalar_is K v) end.
  { subst Q. intros v r. destruct s as [|c s]; [discriminate|]. destruct (N.eqb_spec c QUOT) as [->|_]; [|destruct (N.eqb_spec c APOSTROPHE) as [->|_]].
    - destruct (read_quoted s) as [[x [|d y]]|] eqn:R; try discriminate. destruct (N.eqb_spec d COLON) as [->|]; [|discriminate]. intros H. injection H as <- <-. destruct (quoted_sound _ s x _ (le_n _) R) as (b & -> & H). exists ([0x22%N] ++ b ++ [0x22%N]). split; [rewrite <- !app_assoc; reflexivity|apply quoted_is, H].
    - destruct (read_single s) as [[x [|d y]]|] eqn:R; try discriminate. destruct (N.eqb_spec d COLON) as [->|]; [|discriminate]. intros H. injection H as <- <-. destruct (single_sound _ s x _ (le_n _) R) as (b & -> & H). exists ([0x27%N] ++ b ++ [0x27%N]). split; [rewrite <- !app_assoc; reflexivity|apply single_is, H].
    - destruct (cut_colon (c :: s)) as [[x y]|] eqn:R; [|discriminate]. destruct (read_plain x) as [w|] eqn:P; [|discriminate]. cbn [option_map]. intros H. injection H as <- <-. exists x. split; [apply cut_colon_parts, R|apply read_plain_scalar, P]. }
  destruct Q as [[v r]|]; [|discriminate]. destruct (after_colon r && _)%bool eqn:C; [|discriminate]. intros H. injection H as <- <-. apply andb_true_iff in C as [C1 C2]. apply Nat.leb_le in C2. destruct (A v r eq_refl) as (K & E & S). exists K. split; [exact E|]. split; [|exact C1]. split; [exact S|].
  rewrite E, !app_length in C2. change (List.length (lit ":")) with 1 in C2. unfold char in *. lia.
Qed.
Lemma indented_parts s : s = spaces (fst (indented s)) ++ snd (indented s) /\ hd_error (snd (indented s)) <> Some SPACE.
Proof.
  induction s as [|c s [E N]]; [split; [reflexivity|discriminate]|]. cbn [indented]. destruct (N.eqb_spec c SPACE) as [->|NC].
  - destruct (indented s) as [n x]. cbn [fst snd] in *. split; [cbn [spaces repeat app]; f_equal; exact E|exact N].
  - cbn [fst snd]. split; [reflexivity|]. intros Q. injection Q as Q. exact (NC Q).
Qed.
Lemma cut_dash_sound s i x : cut_dash s = Some (i, x) -> (s = lit "-" /\ i = 1 /\ x = []) \/ exists j, i = 2 + j /\ s = lit "- " ++ spaces j ++ x.
Proof.
  unfold cut_dash. destruct s as [|c r]; [discriminate|]. destruct (N.eqb_spec c MINUS) as [->|]; [|discriminate]. destruct r as [|d r]; [intros H; injection H as <- <-; left; auto|].
  destruct (N.eqb_spec d SPACE) as [->|]; [|discriminate]. destruct (indented_parts r) as [E _]. destruct (indented r) as [j y]. cbn [fst snd] in E. intros H. injection H as <- <-. right. exists j. split; [reflexivity|]. rewrite E at 1. reflexivity.
Qed.

(** ** Lines *)
Definition neat_lines (ls : list line) : Prop := Forall (fun l => neat (snd l)) ls.
Lemma neat_lines_app a b : neat_lines (a ++ b) -> neat_lines b.
Proof. intros H. apply Forall_app in H. apply H. Qed.
Lemma block_sound : forall f,
  (forall n s r v rest, neat_lines ((n, s) :: r) -> read_node f ((n, s) :: r) = Some (v, rest) -> exists pre, (n, s) :: r = pre ++ rest /\ pre <> [] /\ block n pre v) /\
  (forall n ls vs rest, neat_lines ls -> read_seq f n ls = Some (vs, rest) -> exists pre, ls = pre ++ rest /\ elements n pre vs) /\
  (forall n seen ls kvs rest, neat_lines ls -> read_map f n seen ls = Some (kvs, rest) -> exists pre, ls = pre ++ rest /\ pairs n pre kvs /\ separate seen kvs).
Proof.
  induction f as [|f (IH1 & IH2 & IH3)]; [repeat split; intros; discriminate|]. split; [|split].
  - intros n s r v rest N H. cbn [read_node] in H. destruct (cut_dash s) as [d|] eqn:D; [|destruct (cut_key s) as [d|] eqn:K].
    + destruct (read_seq f n ((n, s) :: r)) as [[vs r']|] eqn:R; [|discriminate H]. injection H as <- <-. destruct (IH2 n _ vs r' N R) as (pre & E & P).
      assert (V : vs <> []).
      { intros ->. destruct f as [|f']; [discriminate R|]. cbn [read_seq] in R. rewrite Nat.ltb_irrefl, Nat.eqb_refl, D in R. destruct d as [i x]. cbn zeta in R.
        match type of R with match ?q with _ => _ end = _ => destruct q as [[w r1]|]; [|discriminate R] end. destruct (read_seq f' n r1) as [[ws r2]|]; discriminate R. }
      exists pre. split; [exact E|]. split; [intros ->; inversion P; subst; apply V; reflexivity|]. apply b_seq; assumption.
    + destruct (read_map f n [] ((n, s) :: r)) as [[kvs r']|] eqn:R; [|discriminate H]. injection H as <- <-. destruct (IH3 n [] _ kvs r' N R) as (pre & E & P & A & _).
      assert (V : kvs <> []).
      { intros ->. destruct f as [|f']; [discriminate R|]. cbn [read_map] in R. rewrite Nat.ltb_irrefl, Nat.eqb_refl, K in R. destruct d as [k x]. destruct (fresh k []); [|discriminate R]. cbn zeta in R.
        match type of R with match ?q with _ => _ end = _ => destruct q as [[w r1]|]; [|discriminate R] end. destruct (read_map f' n [k] r1) as [[ws r2]|]; discriminate R. }
      exists pre. split; [exact E|]. split; [intros ->; inversion P; subst; apply V; reflexivity|]. apply b_map; assumption.
    + destruct (read_inline s) as [w|] eqn:R; [|discriminate H]. injection H as <- <-. exists [(n, s)]. split; [reflexivity|]. split; [discriminate|]. constructor. apply read_inline_sound; [|exact R]. inversion N; assumption.
  - intros n ls vs rest N H. cbn [read_seq] in H. destruct ls as [|[m s] r]; [injection H as <- <-; exists []; split; [reflexivity|constructor]|].
    destruct (Nat.ltb m n); [injection H as <- <-; exists []; split; [reflexivity|constructor]|]. destruct (Nat.eqb_spec m n) as [->|]; [|discriminate H].
    destruct (cut_dash s) as [[i x]|] eqn:D; [|injection H as <- <-; exists []; split; [reflexivity|constructor]]. cbn zeta in H. inversion N as [|? ? Ns Nr]. subst. cbn [snd] in Ns.
    match type of H with match ?q with _ => _ end = _ => destruct q as [[v r1]|] eqn:EL; [|discriminate H] end. destruct (read_seq f n r1) as [[ws r2]|] eqn:R; [|discriminate H]. injection H as <- <-.
    apply cut_dash_sound in D. destruct x as [|c x].
    + assert (Es : s = lit "-").
      { destruct D as [(E & _)|(j & _ & E)]; [exact E|]. exfalso. rewrite app_nil_r in E. apply (Ns (lit "-" ++ spaces j)). rewrite E, <- app_assoc, <- spaces_end. reflexivity. }
      subst s. clear D. assert (Y : (v = YNull /\ r1 = r) \/ exists m s' r', r = (m, s') :: r' /\ n < m /\ read_node f r = Some (v, r1)).
      { destruct r as [|[m s'] r']; [injection EL as <- <-; auto|]. destruct (Nat.ltb n m) eqn:L; [|injection EL as <- <-; auto]. right. exists m, s', r'. split; [reflexivity|]. split; [apply Nat.ltb_lt, L|exact EL]. }
      destruct Y as [[-> ->]|(m & s' & r' & -> & L & R1)].
      * destruct (IH2 n r ws r2 Nr R) as (pre & -> & P). exists ((n, lit "-") :: pre). split; [reflexivity|]. constructor. exact P.
      * destruct (IH1 m s' r' v r1 Nr R1) as (child & E & _ & B). rewrite E in *. destruct (IH2 n r1 ws r2 (neat_lines_app _ _ Nr) R) as (pre & -> & P). exists ((n, lit "-") :: child ++ pre). split; [cbn [app]; rewrite <- app_assoc; reflexivity|].
        apply (e_block n m); assumption.
    + destruct D as [(_ & _ & E)|(j & -> & ->)]; [discriminate E|]. assert (N2 : neat_lines ((n + (2 + j), c :: x) :: r)) by (constructor; [cbn [snd]; rewrite app_assoc in Ns; exact (neat_app _ _ Ns)|exact Nr]).
      destruct (IH1 _ _ _ v r1 N2 EL) as (pre & E & NP & B). destruct pre as [|l child]; [destruct NP; reflexivity|]. injection E as <- ->. destruct (IH2 n r1 ws r2 (neat_lines_app _ _ Nr) R) as (pre & -> & P).
      exists ((n, lit "- " ++ spaces j ++ c :: x) :: child ++ pre). split; [cbn [app]; rewrite <- app_assoc; reflexivity|]. apply e_cons; assumption.
  - intros n seen ls kvs rest N H. cbn [read_map] in H. destruct ls as [|[m s] r]; [injection H as <- <-; exists []; split; [reflexivity|]; split; [constructor|]; split; [constructor|intros ? []]|].
    destruct (Nat.ltb m n); [injection H as <- <-; exists []; split; [reflexivity|]; split; [constructor|]; split; [constructor|intros ? []]|]. destruct (Nat.eqb_spec m n) as [->|]; [|discriminate H].
    destruct (cut_key s) as [[k x]|] eqn:D; [|discriminate H]. destruct (fresh k seen) eqn:Fr; [|discriminate H]. cbn zeta in H. inversion N as [|? ? Ns Nr]. subst. cbn [snd] in Ns.
    match type of H with match ?q with _ => _ end = _ => destruct q as [[v r1]|] eqn:EL; [|discriminate H] end. destruct (read_map f n (k :: seen) r1) as [[ws r2]|] eqn:R; [|discriminate H]. injection H as <- <-.
    apply cut_key_sound in D as (K & -> & HK & AC). destruct (skip_spaces_parts x) as (j & E & Sp). rewrite app_assoc in Ns. apply neat_app in Ns.
    destruct (skip_spaces x) as [|c y].
    + rewrite app_nil_r in E. subst x. assert (j = 0) by (apply (neat_spaces [] j), Ns). subst j. change (spaces 0) with ([] : str). rewrite app_nil_r. clear AC Ns Sp.
      assert (Y : (v = YNull /\ r1 = r) \/ (exists m s' r', r = (m, s') :: r' /\ n < m /\ read_node f r = Some (v, r1)) \/ exists vs, v = YSeq vs /\ vs <> [] /\ read_seq f n r = Some (vs, r1)).
      { destruct r as [|[m s'] r']; [injection EL as <- <-; auto|]. destruct (Nat.ltb n m) eqn:L; [right; left; exists m, s', r'; split; [reflexivity|]; split; [apply Nat.ltb_lt, L|exact EL]|].
        destruct (Nat.eqb_spec n m) as [<-|]; [|injection EL as <- <-; auto]. destruct (cut_dash s') as [[i z]|] eqn:D; [|injection EL as <- <-; auto]. match type of EL with match ?q with _ => _ end = _ => destruct q as [[vs r3]|] eqn:R3; [|discriminate EL] end. injection EL as <- <-.
        right. right. exists vs. split; [reflexivity|]. split; [|reflexivity]. intros ->. destruct f as [|f']; [discriminate R3|]. cbn [read_seq] in R3. rewrite Nat.ltb_irrefl, Nat.eqb_refl, D in R3. cbn zeta in R3.
        match type of R3 with match ?q with _ => _ end = _ => destruct q as [[w r4]|]; [|discriminate R3] end. destruct (read_seq f' n r4) as [[us r5]|]; discriminate R3. }
      destruct Y as [[-> ->]|[(m & s' & r' & -> & L & R1)|(vs & -> & V & R1)]].
      * destruct (IH3 n _ r ws r2 Nr R) as (pre & -> & P & Se). exists ((n, K ++ lit ":") :: pre). split; [reflexivity|]. split; [constructor; assumption|]. apply separate_cons; assumption.
      * destruct (IH1 m s' r' v r1 Nr R1) as (child & E & _ & B). rewrite E in *. destruct (IH3 n _ r1 ws r2 (neat_lines_app _ _ Nr) R) as (pre & -> & P & Se). exists ((n, K ++ lit ":") :: child ++ pre). split; [cbn [app]; rewrite <- app_assoc; reflexivity|].
        split; [apply (p_block n K k m); assumption|]. apply separate_cons; assumption.
      * destruct (IH2 n r vs r1 Nr R1) as (child & -> & B). destruct (IH3 n _ r1 ws r2 (neat_lines_app _ _ Nr) R) as (pre & -> & P & Se). exists ((n, K ++ lit ":") :: child ++ pre). split; [cbn [app]; rewrite <- app_assoc; reflexivity|].
        split; [apply p_seq; assumption|]. apply separate_cons; assumption.
    + destruct (read_inline (c :: y)) as [w|] eqn:RI; [|discriminate EL]. cbn [option_map] in EL. injection EL as <- <-. rewrite E in Ns. apply neat_app in Ns. apply read_inline_sound in RI; [|exact Ns].
      destruct (IH3 n _ r ws r2 Nr R) as (pre & -> & P & Se). destruct j as [|j]; [exfalso; rewrite E in AC; cbn [spaces repeat app after_colon] in AC; apply N.eqb_eq in AC; subst c; apply Sp; reflexivity|].
      exists ((n, K ++ lit ":" ++ spaces (S j) ++ c :: y) :: pre). split; [rewrite <- E; reflexivity|]. split; [constructor; assumption|]. apply separate_cons; assumption.
Qed.

(** ** The lines of a text *)
Lemma strip_parts : forall n q s, List.length s <= n -> exists rest, s = strip_comment q s ++ rest /\ (rest = [] \/ exists c, rest = lit " #" ++ c /\ Forall shown c).
Proof.
  induction n as [|n IH]; intros q s L; (destruct s as [|c r]; [exists []; split; [reflexivity|auto]|]); [cbn in L; lia|]. cbn [List.length] in L.
  assert (Go : forall q', exists rest, c :: r = (c :: strip_comment q' r) ++ rest /\ (rest = [] \/ exists c, rest = lit " #" ++ c /\ Forall shown c)).
  { intros q'. destruct (IH q' r ltac:(lia)) as (rest & E & H). exists rest. split; [cbn [app]; f_equal; exact E|exact H]. }
  cbn [strip_comment]. destruct q as [d|].
  - destruct (N.eqb c d); [apply Go|]. destruct (N.eqb c BACKSLASH && N.eqb d QUOT)%bool; [|apply Go]. destruct r as [|e r']; [exists []; split; [reflexivity|auto]|]. cbn [List.length] in L.
    destruct (IH (Some d) r' ltac:(lia)) as (rest & E & H). exists rest. split; [cbn [app]; do 2 f_equal; exact E|exact H].
  - destruct (N.eqb c SPACE && starts_with [HASH] r && forallb printable r)%bool eqn:C; [|apply Go]. rewrite !andb_true_iff, N.eqb_eq in C. destruct C as [[-> C1] C2]. apply starts_with_app in C1 as (x & ->). exists (lit " #" ++ x). split; [reflexivity|].
    right. exists x. split; [reflexivity|]. cbn [app forallb] in C2. apply andb_true_iff in C2 as [_ C2]. rewrite forallb_forall in C2. apply Forall_forall. intros y I. apply printable_iff, C2, I.
Qed.
Lemma trim_neat s : neat (trim_end_matches SPACE s).
Proof.
  destruct (trim_parts s) as (j & _ & H). intros a E. apply H. rewrite E, rev_app_distr. reflexivity.
Qed.
Lemma tidy_parts s : exists e, s = tidy s ++ e /\ forall x, line_end x -> line_tail (e ++ x).
Proof.
  unfold tidy. destruct (strip_parts _ None s (le_n _)) as (rest & E & H). destruct (trim_parts (strip_comment None s)) as (j & T & _). set (y := trim_end_matches SPACE (strip_comment None s)) in *. clearbody y. rewrite T in E.
  exists (spaces j ++ rest). split; [rewrite E at 1; rewrite <- app_assoc; reflexivity|]. intros x X. destruct H as [-> |(c & -> & F)].
  - rewrite app_nil_r. constructor. exact X.
  - replace ((spaces j ++ lit " #" ++ c) ++ x) with (spaces (S j) ++ lit "#" ++ c ++ x); [constructor; assumption|]. rewrite spaces_end, <- !app_assoc. reflexivity.
Qed.
Lemma drop_return_parts s : exists e, s = drop_return s ++ e /\ line_end e.
Proof.
  unfold drop_return, strip_suffix_char. destruct (rev s) as [|c r] eqn:E; [exists []; split; [rewrite app_nil_r; reflexivity|left; reflexivity]|]. destruct (N.eqb_spec c RETURN) as [->|]; [|exists []; split; [rewrite app_nil_r; reflexivity|left; reflexivity]].
  exists [RETURN]. split; [|right; reflexivity]. rewrite <- (rev_involutive s), E. reflexivity.
Qed.
Lemma content_sound l ls raw : layout ls raw -> layout (content_line l ++ ls) (l :: raw) /\ neat_lines (content_line l).
Proof.
  intros L. unfold content_line. destruct (drop_return_parts l) as (e & E & X). destruct (indented_parts (drop_return l)) as [I _]. destruct (indented (drop_return l)) as [n x]. cbn [fst snd] in I. rewrite I in E. clear I.
  destruct x as [|c x].
  - rewrite app_nil_r in E. subst l. split; [constructor; assumption|constructor].
  - destruct (N.eqb_spec c HASH) as [->|]; cbn [andb].
    + destruct (forallb printable (HASH :: x)) eqn:P; cbn [app].
      * split; [|constructor]. subst l. cbn [forallb] in P. apply andb_true_iff in P as [_ P]. rewrite <- app_assoc. apply (l_comment n x e); try assumption. rewrite forallb_forall in P. apply Forall_forall. intros y J. apply printable_iff, P, J.
      * destruct (tidy_parts (HASH :: x)) as (t & T & H). split; [|constructor; [apply trim_neat|constructor]]. subst l. rewrite T at 2. rewrite <- !app_assoc. constructor; [apply H, X|exact L].
    + destruct (tidy_parts (c :: x)) as (t & T & H). split; [|constructor; [apply trim_neat|constructor]]. subst l. rewrite T at 2. rewrite <- !app_assoc. constructor; [apply H, X|exact L].
Qed.
Lemma lines_sound raw : layout (flat_map content_line raw) raw /\ neat_lines (flat_map content_line raw).
Proof.
  induction raw as [|l raw [L N]]; [split; constructor|]. destruct (content_sound l _ raw L) as [A B]. split; [exact A|]. apply Forall_app. auto.
Qed.
Lemma joined_split sep t : joined [sep] (split sep t) = t.
Proof.
  induction t as [|c t IH]; [reflexivity|]. cbn [split]. assert (N : split sep t <> []) by (destruct t as [|d t]; [discriminate|]; cbn [split]; destruct (N.eqb d sep); [discriminate|]; destruct (split sep t); discriminate).
  destruct (N.eqb_spec c sep) as [->|].
  - destruct (split sep t) as [|p ps]; [destruct N; reflexivity|]. change (joined [sep] ([] :: p :: ps)) with ([sep] ++ joined [sep] (p :: ps)). rewrite IH. reflexivity.
  - destruct (split sep t) as [|p ps]; [destruct N; reflexivity|]. destruct ps as [|q ps]; [cbn in *; f_equal; exact IH|]. change (joined [sep] ((c :: p) :: q :: ps)) with (c :: joined [sep] (p :: q :: ps)). rewrite IH. reflexivity.
Qed.
Lemma shallow_nested : forall d v, shallow d v = true -> nested d v.
Proof.
  induction d as [|d IH]; intros v H; destruct v; try (apply ns_scalar; discriminate); cbn [shallow] in H; try discriminate H.
  - apply ns_seq, Forall_forall. intros x I. rewrite forallb_forall in H. apply IH, H, I.
  - apply ns_map, Forall_forall. intros x I. rewrite forallb_forall in H. apply IH, H, I.
Qed.
Lemma read_sound t v : read_document t = Some v -> document_text t v.
Proof.
  unfold read_document, content_lines. destruct (lines_sound (split NEWLINE t)) as [L N]. set (raw := split NEWLINE t) in *. set (all := flat_map content_line raw) in *.
  set (ls := match all with (n, s) :: r => if (Nat.eqb n 0 && str_eqb s (lit "---"))%bool then r else (n, s) :: r | [] => [] end).
  assert (A : (layout ls raw \/ layout ((0, lit "---") :: ls) raw) /\ neat_lines ls).
  { subst ls. destruct all as [|[n s] r]; [auto|]. destruct (Nat.eqb n 0 && str_eqb s (lit "---"))%bool eqn:E; [|auto]. apply andb_true_iff in E as [E1 E2]. apply Nat.eqb_eq in E1. apply str_eqb_eq in E2. subst n s. split; [auto|]. inversion N; assumption. }
  clearbody ls. destruct A as [A B]. destruct (read_node _ ls) as [[w [|y z]]|] eqn:R; try discriminate. destruct (shallow 100 w) eqn:Sh; [|discriminate]. intros H. injection H as <-.
  destruct ls as [|[n s] r]; [discriminate R|]. apply block_sound in R as (pre & E & _ & Bl); [|exact B]. rewrite app_nil_r in E. subst pre.
  exists ((n, s) :: r), raw. split; [apply shallow_nested, Sh|]. split; [exists n; exact Bl|]. split; [exact A|]. subst raw. symmetry. apply joined_split.
Qed.
