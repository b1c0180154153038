(** Facts about YAML text: printing and reading back. *)
From Coq Require Import String.
From Verif Require Import Base StrOps Corr Table Charset Yaml File YamlText BaseFacts.
Local Open Scope string_scope.
Local Open Scope list_scope.
Local Open Scope N_scope.

(** Characters that can be printed: those that stand for themselves and those that are always escaped. *)
Definition can_print (c : char) : bool := (printable c || quoted_char c)%bool.

Lemma in_text_false t c : in_text t c = false -> ~ In c (lit t).
Proof.
  unfold in_text. intros H I. assert (X : existsb (N.eqb c) (lit t) = true); [|congruence].
  apply existsb_exists. exists c. split; [exact I|apply N.eqb_refl].
Qed.

Lemma small_cases (P : N -> Prop) c : c < 0x20 -> (forall n, (n < 32)%nat -> P (N.of_nat n)) -> P c.
Proof. intros H F. rewrite <- (N2Nat.id c). apply F. lia. Qed.

Lemma quoted_char_cases c : quoted_char c = true -> printable c = true \/ c < 0x20.
Proof.
  unfold quoted_char, printable. rewrite !orb_true_iff, !andb_true_iff, !N.leb_le, !N.eqb_eq.
  intros H. destruct (N.lt_ge_cases c 0x20) as [L|L]; [right; exact L|left]. left.
  rewrite N.ltb_lt. split; [exact L|]. unfold QUOT in H.
  destruct H as [[[[[[[H|H]|H]|H]|H]|H]|H]|H]; try lia.
  unfold in_text in H. apply existsb_exists in H as (x & I & E). apply N.eqb_eq in E. subst x. vm_compute in I. intuition lia.
Qed.

(** ** Double-quoted scalars *)
Lemma escape_small c rest : c < 0x20 -> read_quoted (escape_char c ++ rest) = cons_to c (read_quoted rest).
Proof.
  intros H. apply (small_cases (fun c => read_quoted (escape_char c ++ rest) = cons_to c (read_quoted rest)) c H).
  intros n L. do 32 (destruct n as [|n]; [reflexivity|]). lia.
Qed.
Lemma escape_reads c rest : can_print c = true -> read_quoted (escape_char c ++ rest) = cons_to c (read_quoted rest).
Proof.
  intros H. unfold can_print in H. apply orb_true_iff in H.
  assert (D : printable c = true \/ c < 0x20) by (destruct H as [H|H]; [left; exact H|apply quoted_char_cases, H]).
  destruct D as [D|D]; [|apply escape_small, D].
  assert (G : 0x20 <= c).
  { unfold printable in D. rewrite orb_true_iff, !andb_true_iff, !N.leb_le in D. lia. }
  unfold escape_char. destruct (N.eqb_spec c QUOT) as [->|N1]; [reflexivity|]. destruct (N.eqb_spec c BACKSLASH) as [->|N2]; [reflexivity|].
  assert (X : forall k, (k < 0x20)%N -> N.eqb c k = false) by (intros k K; apply N.eqb_neq; lia).
  rewrite !X by lia. rewrite (proj2 (N.ltb_ge c 0x20) G). cbn [orb].
  assert (N7 : N.eqb c 0x7F = false).
  { apply N.eqb_neq. intros ->. discriminate D. }
  rewrite N7. cbn [app read_quoted]. rewrite (proj2 (N.eqb_neq _ _) N1), (proj2 (N.eqb_neq _ _) N2), D. reflexivity.
Qed.
Lemma quoted_reads s rest : forallb can_print s = true -> read_quoted (flat_map escape_char s ++ QUOT :: rest) = Some (s, rest).
Proof.
  induction s as [|c s IH]; intros H; [reflexivity|]. cbn [forallb] in H. apply andb_true_iff in H as [H1 H2].
  cbn [flat_map]. rewrite <- app_assoc, (escape_reads c _ H1), (IH H2). reflexivity.
Qed.

(** ** A printed string *)
(** What is assumed of a string: its characters can be printed, and it does not look like a number in base 2, 8 or 16. *)
Definition showable (s : str) : Prop := forallb can_print s = true /\ radix_text s = false.

Lemma need_quotes_false s : need_quotes s = false -> exists c r, s = c :: r /\ c <> SPACE /\ last s c <> SPACE /\
  in_text "&*?|-<>=!%@" c = false /\ existsb quoted_char s = false /\ mem str_eqb s RESERVED = false /\ c <> DOT /\ float_text s = false.
Proof.
  destruct s as [|c r]; [discriminate|]. unfold need_quotes. rewrite !orb_false_iff. intros [[[[[[[H1 H2] H3] H4] H5] H6] H7] H8].
  exists c, r. apply N.eqb_neq in H1, H2, H6. tauto.
Qed.
Lemma no_quoted_char s : existsb quoted_char s = false -> forall c, In c s -> quoted_char c = false.
Proof.
  intros H c I. destruct (quoted_char c) eqn:E; [|reflexivity]. rewrite <- H. symmetry. apply existsb_exists. eauto.
Qed.
Lemma quoted_false c : quoted_char c = false -> in_text ":{}[],#`'\" c = false /\ c <> QUOT.
Proof. unfold quoted_char. rewrite !orb_false_iff. intros [[[[[[[A B] _] _] _] _] _] _]. split; [exact A|apply N.eqb_neq, B]. Qed.
Lemma in_text_incl t t' c : in_text t' c = false -> (forall x, In x (lit t) -> In x (lit t')) -> in_text t c = false.
Proof.
  intros H I. destruct (in_text t c) eqn:E; [|reflexivity]. apply existsb_exists in E as (x & X & Q). apply N.eqb_eq in Q. subst x.
  destruct (in_text_false t' c H (I c X)).
Qed.
Ltac incl := let x := fresh in intros x; vm_compute; tauto.

Lemma plain_shown s : showable s -> need_quotes s = false -> plain_text s = true /\ resolve s = Some (YStr s).
Proof.
  intros [H R] Q. destruct (need_quotes_false s Q) as (c & r & E & S1 & S2 & I & X & M & D & F).
  assert (P : forall x, In x s -> printable x = true /\ in_text ":{}[],#`'\" x = false /\ x <> QUOT).
  { intros x Hx. pose proof (no_quoted_char s X x Hx) as Qx. destruct (quoted_false x Qx) as [A B].
    rewrite forallb_forall in H. pose proof (H x Hx) as Hp. unfold can_print in Hp. rewrite Qx, orb_false_r in Hp. auto. }
  split.
  - subst s. unfold plain_text. destruct (P c (or_introl eq_refl)) as (_ & Pc & Qc).
    assert (J : in_text "-?&*!|<>=%@ " c = false).
    { destruct (in_text "-?&*!|<>=%@ " c) eqn:E; [|reflexivity]. exfalso. apply existsb_exists in E as (x & Ix & Ex). apply N.eqb_eq in Ex. subst x.
      pose proof (in_text_false _ _ I) as I1. pose proof (in_text_false _ _ Pc) as I2. revert Ix I1 I2. vm_compute.
      intros Ix I1 I2. repeat (destruct Ix as [Ix|Ix]; [subst c; (apply I1; tauto) || (apply I2; tauto) || (apply S1; reflexivity)|]). exact Ix. }
    rewrite J. apply N.eqb_neq in S2. rewrite S2. cbn [negb andb]. apply forallb_forall. intros x Hx.
    destruct (P x Hx) as (A & B & C). rewrite A. cbn [andb]. destruct (in_text ":#,[]{}`'""\" x) eqn:E; [|reflexivity]. exfalso. apply existsb_exists in E as (y & Iy & Ey). apply N.eqb_eq in Ey. subst y.
    pose proof (in_text_false _ _ B) as B'. revert Iy B' C. vm_compute. intros Iy B' C. repeat (destruct Iy as [Iy|Iy]; [subst x; (apply B'; tauto) || (apply C; reflexivity)|]). exact Iy.
  - assert (RV : forall x, In x RESERVED -> str_eqb s x = false).
    { intros x Hx. destruct (str_eqb s x) eqn:E1; [|reflexivity]. rewrite <- M. symmetry. apply existsb_exists. eauto. }
    unfold resolve. rewrite !RV by (vm_compute; tauto). cbn [orb]. rewrite M, R, F.
    assert (SD : starts_with [DOT] s = false).
    { rewrite E. cbn [starts_with]. apply not_eq_sym, N.eqb_neq in D. rewrite D. reflexivity. }
    rewrite SD. reflexivity.
Qed.

(** The first character of a printed string. *)
Lemma emit_first s : showable s -> exists c r, emit_scalar s = c :: r /\ c <> SPACE /\ c <> HASH /\ c <> MINUS /\ c <> LBRACKET /\ c <> 0x7B /\
  (c = QUOT <-> need_quotes s = true) /\ c <> APOSTROPHE.
Proof.
  intros H. unfold emit_scalar. destruct (need_quotes s) eqn:Q.
  - eexists. eexists. split; [reflexivity|]. repeat (split; [discriminate|]). split; [tauto|discriminate].
  - destruct (need_quotes_false s Q) as (c & r & E & S1 & S2 & I & X & M & D & F). subst s. exists c, r. split; [reflexivity|].
    destruct (quoted_false c (no_quoted_char _ X c (or_introl eq_refl))) as [A B].
    split; [exact S1|]. pose proof (in_text_false _ _ A) as A'. pose proof (in_text_false _ _ I) as I'.
    split; [intros ->; apply A'; vm_compute; tauto|]. split; [intros ->; apply I'; vm_compute; tauto|].
    split; [intros ->; apply A'; vm_compute; tauto|]. split; [intros ->; apply A'; vm_compute; tauto|]. split; [split; [intros ->; destruct (B eq_refl)|discriminate]|]. intros ->; apply A'; vm_compute; tauto.
Qed.
Lemma cut_dash_emit s x : showable s -> cut_dash (emit_scalar s ++ x) = None.
Proof.
  intros H. destruct (emit_first s H) as (c & r & -> & _ & _ & M & _). cbn [app cut_dash].
  apply N.eqb_neq in M. rewrite M. reflexivity.
Qed.
Lemma cut_colon_none s : (forall c, In c s -> c <> COLON) -> cut_colon s = None.
Proof.
  induction s as [|c s IH]; intros H; [reflexivity|]. cbn [cut_colon]. rewrite (proj2 (N.eqb_neq _ _) (H c (or_introl eq_refl))).
  rewrite IH; [reflexivity|]. intros d D. apply H. right. exact D.
Qed.
Lemma cut_colon_app s r : (forall c, In c s -> c <> COLON) -> cut_colon (s ++ COLON :: r) = Some (s, r).
Proof.
  induction s as [|c s IH]; intros H; [reflexivity|]. cbn [app cut_colon]. rewrite (proj2 (N.eqb_neq _ _) (H c (or_introl eq_refl))).
  rewrite IH; [reflexivity|]. intros d D. apply H. right. exact D.
Qed.
Lemma plain_no_colon s : need_quotes s = false -> forall c, In c s -> c <> COLON.
Proof.
  intros Q c I ->. destruct (need_quotes_false s Q) as (c & r & E & S1 & S2 & _ & X & M & D & F).
  destruct (quoted_false COLON (no_quoted_char _ X _ I)) as [A _]. discriminate A.
Qed.
Lemma scalar_emit s : showable s -> read_scalar (emit_scalar s) = Some (YStr s).
Proof.
  intros H. destruct (emit_first s H) as (c & r & E & _ & _ & _ & _ & _ & Q & NA). apply N.eqb_neq in NA. unfold emit_scalar in *. destruct (need_quotes s) eqn:N.
  - unfold escape_str, read_scalar. cbn iota. rewrite (quoted_reads s []); [reflexivity|apply H].
  - subst s. unfold read_scalar. destruct (N.eqb_spec c QUOT) as [C|C]; [apply Q in C; discriminate C|].
    rewrite NA. destruct (plain_shown _ H N) as [P R]. unfold read_plain. rewrite P. exact R.
Qed.
Lemma inline_emit s : showable s -> read_inline (emit_scalar s) = Some (YStr s).
Proof.
  intros H. destruct (emit_first s H) as (c & r & E & _ & _ & _ & B & C & _). pose proof (scalar_emit s H) as S. rewrite E in *.
  unfold read_inline. apply N.eqb_neq in B, C. change LBRACE with 0x7B. rewrite B, C. exact S.
Qed.
Lemma cut_key_none s : showable s -> cut_key (emit_scalar s) = None.
Proof.
  intros H. destruct (emit_first s H) as (c & r & E & _ & _ & _ & _ & _ & Q & NA). apply N.eqb_neq in NA. unfold emit_scalar in *. destruct (need_quotes s) eqn:N.
  - unfold escape_str, cut_key. cbn iota. rewrite (quoted_reads s []); [reflexivity|apply H].
  - subst s. unfold cut_key. destruct (N.eqb_spec c QUOT) as [C|C]; [apply Q in C; discriminate C|].
    rewrite NA, cut_colon_none; [reflexivity|]. apply plain_no_colon, N.
Qed.
Definition key_fits (s : str) : Prop := (List.length (emit_scalar s) < 1000)%nat.
Lemma cut_key_emit_rest s rest : showable s -> key_fits s -> after_colon rest = true -> cut_key (emit_scalar s ++ COLON :: rest) = Some (YStr s, rest).
Proof.
  intros H K R. unfold key_fits in K. destruct (emit_first s H) as (c & r & E & _ & _ & _ & _ & _ & Q & NA). apply N.eqb_neq in NA.
  assert (L : Nat.leb (List.length (emit_scalar s ++ COLON :: rest) - List.length rest) 1000 = true) by (apply Nat.leb_le; rewrite app_length; cbn [List.length]; lia).
  unfold cut_key. rewrite E in *. cbn [app]. cbn [app] in L. unfold emit_scalar in E. destruct (need_quotes s) eqn:N.
  - assert (c = QUOT) by tauto. subst c. change (N.eqb QUOT QUOT) with true. cbn iota.
    unfold escape_str in E. injection E as <-. rewrite <- app_assoc in L |- *. cbn [app] in L |- *. rewrite (quoted_reads s (COLON :: rest)); [|apply H].
    change (N.eqb COLON COLON) with true. cbn iota. rewrite R, L. reflexivity.
  - subst s. destruct (N.eqb_spec c QUOT) as [C|C]; [apply Q in C; discriminate C|].
    rewrite NA. change (c :: r ++ COLON :: rest) with ((c :: r) ++ COLON :: rest). rewrite (cut_colon_app _ _ (plain_no_colon _ N)).
    destruct (plain_shown _ H N) as [P V]. unfold read_plain. rewrite P, V. cbn [option_map]. rewrite R. cbn [app]. rewrite L. reflexivity.
Qed.
Lemma cut_key_emit s : showable s -> key_fits s -> cut_key (emit_scalar s ++ [COLON]) = Some (YStr s, []).
Proof. intros H K. exact (cut_key_emit_rest s [] H K eq_refl). Qed.

(** ** Lines *)
Lemma indented_spaces n s : match s with c :: _ => c <> SPACE | [] => True end -> indented (repeat SPACE n ++ s) = (n, s).
Proof.
  intros H. induction n as [|n IH].
  - destruct s as [|c s]; [reflexivity|]. cbn. apply N.eqb_neq in H. rewrite H. reflexivity.
  - cbn [repeat app indented]. change (N.eqb SPACE SPACE) with true. cbn iota. rewrite IH. reflexivity.
Qed.
Definition no_newline (l : str) : Prop := ~ In NEWLINE l.
Lemma split_no_newline l : no_newline l -> split NEWLINE l = [l].
Proof.
  unfold no_newline. induction l as [|c l IH]; intros H; [reflexivity|]. cbn [split]. destruct (N.eqb_spec c NEWLINE) as [->|N]; [destruct H; left; reflexivity|].
  rewrite IH; [reflexivity|]. intros I. apply H. right. exact I.
Qed.
Lemma split_line l t : no_newline l -> split NEWLINE (l ++ NEWLINE :: t) = l :: split NEWLINE t.
Proof.
  unfold no_newline. induction l as [|c l IH]; intros H; [reflexivity|]. cbn [app split]. destruct (N.eqb_spec c NEWLINE) as [->|N]; [destruct H; left; reflexivity|].
  rewrite IH; [reflexivity|]. intros I. apply H. right. exact I.
Qed.
Definition lines_text (ls : list str) : str := flat_map (fun l => NEWLINE :: l) ls.
Lemma split_lines_text l ls : no_newline l -> Forall no_newline ls -> split NEWLINE (l ++ lines_text ls) = l :: ls.
Proof.
  intros H F. revert l H. induction F as [|x ls Hx F IH]; intros l H; cbn [lines_text flat_map].
  - rewrite app_nil_r. apply split_no_newline, H.
  - cbn [app]. fold (lines_text ls). rewrite (split_line l _ H), (IH x Hx). reflexivity.
Qed.
Lemma escape_no_newline c : no_newline (escape_char c).
Proof.
  unfold no_newline. destruct (N.lt_ge_cases c 0x20) as [L|G].
  - apply (small_cases (fun c => ~ In NEWLINE (escape_char c)) c L). intros n Ln.
    do 32 (destruct n as [|n]; [vm_compute; intros H; repeat (destruct H as [H|H]; [discriminate H|]); exact H|]). lia.
  - assert (C : c = 0x7F \/ c <> 0x7F) by lia. destruct C as [->|C]; [vm_compute; intros H; repeat (destruct H as [H|H]; [discriminate H|]); exact H|].
    unfold escape_char. destruct (N.eqb_spec c QUOT) as [->|N1]; [vm_compute; intros [H|[H|[]]]; discriminate H|].
    destruct (N.eqb_spec c BACKSLASH) as [->|N2]; [vm_compute; intros [H|[H|[]]]; discriminate H|].
    assert (X : forall k, (k < 0x20)%N -> N.eqb c k = false) by (intros k K; apply N.eqb_neq; lia).
    rewrite !X by lia. rewrite (proj2 (N.ltb_ge c 0x20) G), (proj2 (N.eqb_neq _ _) C). cbn [orb]. intros [H|[]]. subst c. vm_compute in G. apply G. reflexivity.
Qed.
Lemma emit_no_newline s : no_newline (emit_scalar s).
Proof.
  unfold no_newline, emit_scalar. destruct (need_quotes s) eqn:Q.
  - unfold escape_str. intros [H|H]; [discriminate H|]. apply in_app_or in H as [H|[H|[]]]; [|discriminate H].
    apply in_flat_map in H as (c & _ & H). exact (escape_no_newline c H).
  - intros I. destruct (need_quotes_false s Q) as (c & r & E & S1 & S2 & _ & X & M & D & F).
    pose proof (no_quoted_char _ X _ I) as A. discriminate A.
Qed.
Lemma no_newline_app a b : no_newline a -> no_newline b -> no_newline (a ++ b).
Proof. unfold no_newline. intros A B H. apply in_app_or in H as [H|H]; auto. Qed.
Lemma spaces_no_newline n : no_newline (repeat SPACE n).
Proof. intros H. apply repeat_spec in H. discriminate H. Qed.

(** The lines of a printed correspondence. *)
Definition item_line (v : str) : str := indentation 2 ++ [MINUS; SPACE] ++ emit_scalar v.
Definition key_line (k : str) : str := indentation 1 ++ emit_scalar k ++ [COLON].
Definition group_lines (kv : str * list str) : list str := key_line (fst kv) :: map item_line (snd kv).
Lemma sequence_lines l : l <> [] -> emit_sequence 2 l = lines_text (map item_line l).
Proof.
  intros N. unfold emit_sequence. destruct l as [|x l]; [destruct N; reflexivity|]. clear N. generalize (x :: l). clear. intros l.
  induction l as [|x l IH]; [reflexivity|]. cbn [flat_map map lines_text]. rewrite IH. reflexivity.
Qed.
Lemma lines_text_app a b : lines_text (a ++ b) = lines_text a ++ lines_text b.
Proof. apply flat_map_app. Qed.
Lemma groups_lines gs : gs <> [] -> Forall (fun kv => snd kv <> []) gs -> emit_groups 1 gs = lines_text (flat_map group_lines gs).
Proof.
  intros N F. unfold emit_groups. destruct gs as [|x gs]; [destruct N; reflexivity|]. clear N. revert F. generalize (x :: gs). clear. intros gs F.
  induction F as [|[k vs] gs Hv F IH]; [reflexivity|]. cbn [flat_map]. rewrite IH, lines_text_app. f_equal. cbn [fst snd] in *.
  unfold group_lines. cbn [fst snd lines_text flat_map]. fold (lines_text (map item_line vs)). rewrite <- (sequence_lines vs Hv).
  unfold key_line. cbn [app]. rewrite <- !app_assoc. reflexivity.
Qed.
Lemma key_line_no_newline k : no_newline (key_line k).
Proof.
  unfold key_line. apply no_newline_app; [apply spaces_no_newline|]. apply no_newline_app; [apply emit_no_newline|].
  intros [H|[]]. discriminate H.
Qed.
Lemma item_line_no_newline k : no_newline (item_line k).
Proof.
  unfold item_line. apply no_newline_app; [apply spaces_no_newline|]. apply no_newline_app; [|apply emit_no_newline].
  intros [H|[H|[]]]; discriminate H.
Qed.
Lemma group_lines_no_newline gs : Forall no_newline (flat_map group_lines gs).
Proof.
  apply Forall_forall. intros l H. apply in_flat_map in H as ([k vs] & _ & [H|H]); [subst l; apply key_line_no_newline|].
  apply in_map_iff in H as (v & <- & _). apply item_line_no_newline.
Qed.
Lemma emit_lines gs n : gs <> [] -> Forall (fun kv => snd kv <> []) gs ->
  split NEWLINE (emit_corr gs ++ repeat NEWLINE n) = lit "---" :: lit "items:" :: flat_map group_lines gs ++ repeat [] n.
Proof.
  intros N F. unfold emit_corr. rewrite (groups_lines gs N F).
  assert (R : repeat NEWLINE n = lines_text (repeat [] n)) by (clear; induction n; cbn [repeat lines_text flat_map app]; f_equal; assumption).
  rewrite R. rewrite <- app_assoc. change (lit "---" ++ (([NEWLINE] ++ lit "items:" ++ lines_text (flat_map group_lines gs)) ++ lines_text (repeat [] n)))
    with (lit "---" ++ lines_text [lit "items:"] ++ lines_text (flat_map group_lines gs) ++ lines_text (repeat [] n)) || idtac.
  transitivity (split NEWLINE (lit "---" ++ lines_text (lit "items:" :: flat_map group_lines gs ++ repeat [] n))).
  - f_equal. cbn [lines_text flat_map]. fold (lines_text (flat_map group_lines gs ++ repeat [] n)). rewrite lines_text_app. cbn [app]. rewrite <- ?app_assoc. reflexivity.
  - apply split_lines_text; [vm_compute; intros H; repeat (destruct H as [H|H]; [discriminate H|]); exact H|].
    constructor; [vm_compute; intros H; repeat (destruct H as [H|H]; [discriminate H|]); exact H|]. apply Forall_app. split; [apply group_lines_no_newline|].
    apply Forall_forall. intros l H. apply repeat_spec in H. subst l. intros [].
Qed.

(** ** The end of a line *)
(** No comment starts within [l]; it ends with something that is not dropped. *)
Definition calm (l : str) : Prop := forall rest, hd_error rest <> Some HASH -> strip_comment None (l ++ rest) = l ++ strip_comment None rest.
Definition tight (l : str) : Prop := exists x c, l = x ++ [c] /\ c <> SPACE /\ c <> RETURN.
Lemma calm_nil : calm [].
Proof. intros rest _. reflexivity. Qed.
Lemma calm_app a b : calm a -> calm b -> hd_error b <> Some HASH -> calm (a ++ b).
Proof.
  intros A B H rest R. rewrite <- !app_assoc. rewrite A, (B rest R); [reflexivity|]. destruct b; [exact R|exact H].
Qed.
Lemma tight_app a b : tight b -> tight (a ++ b).
Proof. intros (x & c & -> & H). exists (a ++ x), c. rewrite <- app_assoc. auto. Qed.
Lemma calm_chars l : forallb (fun c => negb (in_text "#'""" c)) l = true -> calm l.
Proof.
  intros H rest R. induction l as [|c l IH]; [reflexivity|]. cbn [forallb] in H. apply andb_true_iff in H as [H1 H2]. apply negb_true_iff in H1. pose proof (in_text_false _ _ H1) as N.
  cbn [app strip_comment]. assert (X : starts_with [HASH] (l ++ rest) = false).
  { destruct l as [|d l].
    - cbn [app]. destruct rest as [|d rest]; [reflexivity|]. cbn [starts_with]. rewrite (proj2 (N.eqb_neq HASH d)); [reflexivity|]. intros <-. apply R. reflexivity.
    - cbn [app starts_with]. cbn [forallb] in H2. apply andb_true_iff in H2 as [H2 _]. apply negb_true_iff, in_text_false in H2. rewrite (proj2 (N.eqb_neq HASH d)); [reflexivity|]. intros <-. apply H2. vm_compute. tauto. }
  rewrite X, andb_false_r. cbn [andb]. assert (Q : N.eqb c QUOT = false) by (apply N.eqb_neq; intros ->; apply N; vm_compute; tauto).
  assert (A : N.eqb c APOSTROPHE = false) by (apply N.eqb_neq; intros ->; apply N; vm_compute; tauto). rewrite Q, A. cbn [orb]. rewrite (IH H2). reflexivity.
Qed.
Lemma calm_spaces n : calm (repeat SPACE n).
Proof. apply calm_chars. apply forallb_forall. intros x I. apply repeat_spec in I. subst x. reflexivity. Qed.
(** Between quotation marks. *)
Lemma quoted_passes : forall n r x rest, (List.length r <= n)%nat -> read_quoted r = Some (x, rest) ->
  exists b, r = b ++ QUOT :: rest /\ forall z, strip_comment (Some QUOT) (b ++ QUOT :: z) = b ++ QUOT :: strip_comment None z.
Proof.
  induction n as [|n IH]; intros r x rest L H; (destruct r as [|c r]; [discriminate H|]); cbn [List.length] in L; [lia|]. cbn [read_quoted] in H.
  destruct (N.eqb_spec c QUOT) as [->|NQ].
  { injection H as _ <-. exists []. split; [reflexivity|]. intros z. cbn [app strip_comment]. change (N.eqb QUOT QUOT) with true. reflexivity. }
  apply N.eqb_neq in NQ. destruct (N.eqb_spec c BACKSLASH) as [->|NB].
  - destruct r as [|e r]; [discriminate H|]. cbn [List.length] in L. assert (G : exists h r1 x1, r = h ++ r1 /\ read_quoted r1 = Some (x1, rest) /\
      (forall z, strip_comment (Some QUOT) (h ++ z) = h ++ strip_comment (Some QUOT) z)).
    { destruct (unescape e) as [y|].
      - exists [], r. destruct (read_quoted r) as [[x1 r1]|] eqn:E; [|discriminate H]. injection H as _ <-. exists x1. split; [reflexivity|]. split; [reflexivity|]. reflexivity.
      - destruct (N.eqb e 0x75); [|discriminate H]. destruct r as [|h1 [|h2 [|h3 [|h4 r]]]]; try discriminate H.
        assert (HX : forall h v, hex_value h = Some v -> N.eqb h QUOT = false /\ N.eqb h BACKSLASH = false).
        { intros h v Q. split; apply N.eqb_neq; intros ->; discriminate Q. }
        destruct (hex_value h1) eqn:E1; [|discriminate H]. destruct (hex_value h2) eqn:E2; [|discriminate H]. destruct (hex_value h3) eqn:E3; [|discriminate H]. destruct (hex_value h4) eqn:E4; [|discriminate H].
        cbn zeta in H. match type of H with (if ?q then _ else _) = _ => destruct q end; [|discriminate H]. destruct (read_quoted r) as [[x1 r1]|] eqn:E; [|discriminate H]. injection H as _ <-.
        exists [h1; h2; h3; h4], r, x1. split; [reflexivity|]. split; [exact E|]. intros z. cbn [app strip_comment].
        destruct (HX _ _ E1) as [-> ->], (HX _ _ E2) as [-> ->], (HX _ _ E3) as [-> ->], (HX _ _ E4) as [-> ->]. reflexivity. }
    destruct G as (h & r1 & x1 & -> & R & P). destruct (IH r1 x1 rest) as (b & -> & B); [rewrite app_length in L; lia|exact R|].
    exists (BACKSLASH :: e :: h ++ b). split; [cbn [app]; rewrite <- app_assoc; reflexivity|]. intros z. cbn [app strip_comment]. change (N.eqb BACKSLASH QUOT) with false.
    change (N.eqb BACKSLASH BACKSLASH && N.eqb QUOT QUOT)%bool with true. cbn iota. rewrite <- !app_assoc, P, B. reflexivity.
  - destruct (printable c); [|discriminate H]. destruct (read_quoted r) as [[x1 r1]|] eqn:E; [|discriminate H]. injection H as _ <-. destruct (IH r x1 r1) as (b & -> & B); [lia|exact E|].
    exists (c :: b). split; [reflexivity|]. intros z. cbn [app strip_comment]. rewrite NQ, (proj2 (N.eqb_neq _ _) NB). cbn [andb]. rewrite B. reflexivity.
Qed.
Lemma single_passes : forall n r x rest, (List.length r <= n)%nat -> read_single r = Some (x, rest) ->
  exists b, r = b ++ APOSTROPHE :: rest /\ forall z, strip_comment (Some APOSTROPHE) (b ++ APOSTROPHE :: z) = b ++ APOSTROPHE :: strip_comment None z.
Proof.
  induction n as [|n IH]; intros r x rest L H; (destruct r as [|c r]; [discriminate H|]); cbn [List.length] in L; [lia|]. cbn [read_single] in H.
  assert (One : forall z, strip_comment (Some APOSTROPHE) ([] ++ APOSTROPHE :: z) = [] ++ APOSTROPHE :: strip_comment None z) by (intros z; cbn [app strip_comment]; change (N.eqb APOSTROPHE APOSTROPHE) with true; reflexivity).
  destruct (N.eqb_spec c APOSTROPHE) as [->|NQ].
  - destruct r as [|d r]; [injection H as _ <-; exists []; auto|]. destruct (N.eqb_spec d APOSTROPHE) as [->|ND]; [|injection H as _ <-; exists []; auto].
    destruct (read_single r) as [[x1 r1]|] eqn:E; [|discriminate H]. injection H as _ <-. cbn [List.length] in L. destruct (IH r x1 r1) as (b & -> & B); [lia|exact E|].
    exists (APOSTROPHE :: APOSTROPHE :: b). split; [reflexivity|]. intros z. cbn [app strip_comment]. change (N.eqb APOSTROPHE APOSTROPHE) with true. change (N.eqb APOSTROPHE SPACE) with false. change (N.eqb APOSTROPHE QUOT) with false.
    cbn [andb orb]. rewrite B. reflexivity.
  - apply N.eqb_neq in NQ. destruct (printable c); [|discriminate H]. destruct (read_single r) as [[x1 r1]|] eqn:E; [|discriminate H]. injection H as _ <-. destruct (IH r x1 r1) as (b & -> & B); [lia|exact E|].
    exists (c :: b). split; [reflexivity|]. intros z. cbn [app strip_comment]. rewrite NQ. change (N.eqb APOSTROPHE QUOT) with false. rewrite andb_false_r. cbn [andb]. rewrite B. reflexivity.
Qed.
Lemma quoted_calm r x : read_quoted r = Some (x, []) -> calm (QUOT :: r) /\ tight (QUOT :: r).
Proof.
  intros H. destruct (quoted_passes _ r x [] (le_n _) H) as (b & -> & B). split; [|exists (QUOT :: b), QUOT; split; [reflexivity|split; discriminate]].
  intros rest _. cbn [app strip_comment]. change (N.eqb QUOT SPACE) with false. change (N.eqb QUOT QUOT) with true. cbn [andb orb]. rewrite <- !app_assoc. cbn [app]. rewrite B. reflexivity.
Qed.
Lemma single_calm r x : read_single r = Some (x, []) -> calm (APOSTROPHE :: r) /\ tight (APOSTROPHE :: r).
Proof.
  intros H. destruct (single_passes _ r x [] (le_n _) H) as (b & -> & B). split; [|exists (APOSTROPHE :: b), APOSTROPHE; split; [reflexivity|split; discriminate]].
  intros rest _. cbn [app strip_comment]. change (N.eqb APOSTROPHE SPACE) with false. change (N.eqb APOSTROPHE QUOT) with false. change (N.eqb APOSTROPHE APOSTROPHE) with true. cbn [andb orb]. rewrite <- !app_assoc. cbn [app]. rewrite B. reflexivity.
Qed.
Lemma tight_last s c r : s = c :: r -> last s c <> SPACE -> ~ In RETURN s -> tight s.
Proof.
  intros -> L N. exists (removelast (c :: r)), (last (c :: r) c). split; [apply app_removelast_last; discriminate|]. split; [exact L|].
  intros E. apply N. rewrite <- E. clear. revert c. induction r as [|d r IH]; intros c; [left; reflexivity|]. right. specialize (IH d). cbn [last] in *. destruct r; [exact IH|].
  assert (G : forall (l : str) a b, l <> [] -> last l a = last l b) by (clear; induction l as [|x l IH]; intros a b N; [destruct N; reflexivity|]; destruct l; [reflexivity|]; apply IH; discriminate).
  rewrite (G _ c d); [exact IH|discriminate].
Qed.
Lemma trim_end_app s c : c <> SPACE -> forall n, trim_end_matches SPACE ((s ++ [c]) ++ repeat SPACE n) = s ++ [c].
Proof.
  intros N n. unfold trim_end_matches. rewrite rev_app_distr. assert (R : rev (repeat SPACE n) = repeat SPACE n).
  { induction n as [|n IH]; [reflexivity|]. cbn [repeat rev]. rewrite IH. clear. induction n as [|n IH]; [reflexivity|]. cbn [repeat app]. rewrite IH. reflexivity. }
  rewrite R, rev_app_distr. cbn [rev app]. assert (T : trim_start_matches SPACE (repeat SPACE n ++ c :: rev s) = c :: rev s).
  { clear R. induction n as [|n IH]; [|cbn [repeat app trim_start_matches]; change (N.eqb SPACE SPACE) with true; exact IH]. cbn [repeat app trim_start_matches]. rewrite (proj2 (N.eqb_neq _ _) N). reflexivity. }
  rewrite T. cbn [rev]. rewrite rev_involutive. reflexivity.
Qed.
(** What may follow on the line: spaces, or spaces and a comment; then a carriage return. *)
Definition tail_ok (t : str) : Prop := exists i e, (e = [] \/ e = [RETURN]) /\ (t = repeat SPACE i ++ e \/ exists c, forallb printable c = true /\ t = repeat SPACE (S i) ++ HASH :: c ++ e).
Lemma drop_return_end x e : (e = [] \/ e = [RETURN]) -> (forall y, x <> y ++ [RETURN]) -> drop_return (x ++ e) = x.
Proof.
  intros [-> | ->] N; unfold drop_return, strip_suffix_char.
  - rewrite app_nil_r. destruct (rev x) as [|c r] eqn:E; [reflexivity|]. destruct (N.eqb_spec c RETURN) as [->|]; [|reflexivity]. destruct (N (rev r)).
    rewrite <- (rev_involutive x), E. reflexivity.
  - rewrite rev_app_distr. cbn [rev app]. change (N.eqb RETURN RETURN) with true. cbn iota. apply rev_involutive.
Qed.
Lemma ends_in (y : str) : forall x, (exists c, x = y ++ [c] /\ c <> RETURN) -> forall z, x <> z ++ [RETURN].
Proof. intros x (c & -> & N) z E. apply app_inj_tail in E as [_ E]. exact (N E). Qed.
Lemma printable_return c : forallb printable c = true -> forall z, c <> z ++ [RETURN].
Proof. intros H z ->. rewrite forallb_app in H. apply andb_true_iff in H as [_ H]. discriminate H. Qed.
Lemma tidied x c t : x = c :: tl x -> c <> SPACE -> c <> HASH -> calm x -> tight x -> tail_ok t -> forall n, content_line (repeat SPACE n ++ x ++ t) = [(n, x)].
Proof.
  intros Ex N1 N2 C (y & d & E & D1 & D2) (i & e & He & T) n. unfold content_line.
  assert (R : exists u, drop_return (repeat SPACE n ++ x ++ t) = repeat SPACE n ++ x ++ u /\ tidy (x ++ u) = x).
  { destruct T as [-> |(k & P & ->)].
    - exists (repeat SPACE i). split.
      + rewrite !app_assoc. rewrite drop_return_end; [rewrite <- app_assoc; reflexivity|exact He|]. destruct i as [|i].
        * cbn [repeat]. rewrite app_nil_r. intros z Q. rewrite E in Q. rewrite app_assoc in Q. apply app_inj_tail in Q as [_ Q]. exact (D2 Q).
        * replace (repeat SPACE (S i)) with (repeat SPACE i ++ [SPACE]) by (clear; induction i; [reflexivity|]; cbn [repeat app] in *; rewrite IHi; reflexivity).
          intros z Q. rewrite app_assoc in Q. apply app_inj_tail in Q as [_ Q]. discriminate Q.
      + unfold tidy. rewrite C by (destruct i; discriminate). replace (strip_comment None (repeat SPACE i)) with (repeat SPACE i).
        * rewrite E. apply trim_end_app, D1.
        * symmetry. pose proof (calm_spaces i [] ltac:(discriminate)) as Q. rewrite !app_nil_r in Q. exact Q.
    - exists (repeat SPACE (S i) ++ HASH :: k). split.
      + replace (repeat SPACE n ++ x ++ repeat SPACE (S i) ++ HASH :: k ++ e) with ((repeat SPACE n ++ x ++ repeat SPACE (S i) ++ HASH :: k) ++ e) by (rewrite <- !app_assoc; reflexivity).
        rewrite drop_return_end; [reflexivity|exact He|]. destruct k as [|k0 k'] using rev_ind.
        * intros z Q. replace (repeat SPACE n ++ x ++ repeat SPACE (S i) ++ [HASH]) with ((repeat SPACE n ++ x ++ repeat SPACE (S i)) ++ [HASH]) in Q by (rewrite <- !app_assoc; reflexivity).
          apply app_inj_tail in Q as [_ Q]. discriminate Q.
        * intros z Q. replace (repeat SPACE n ++ x ++ repeat SPACE (S i) ++ HASH :: k' ++ [k0]) with ((repeat SPACE n ++ x ++ repeat SPACE (S i) ++ HASH :: k') ++ [k0]) in Q by (rewrite <- !app_assoc; reflexivity).
          apply app_inj_tail in Q as [_ Q]. subst k0. exact (printable_return _ P k' eq_refl).
      + unfold tidy. rewrite C by discriminate.
        assert (Q : strip_comment None (repeat SPACE (S i) ++ HASH :: k) = repeat SPACE i).
        { clear -P. induction i as [|i IH].
          - cbn [repeat app strip_comment starts_with]. change (N.eqb SPACE SPACE) with true. change (N.eqb HASH HASH) with true. cbn [forallb]. change (printable HASH) with true. cbn [andb]. rewrite P. reflexivity.
          - change (repeat SPACE (S (S i)) ++ HASH :: k) with (SPACE :: (repeat SPACE (S i) ++ HASH :: k)). cbn [strip_comment]. change (starts_with [HASH] (repeat SPACE (S i) ++ HASH :: k)) with false. rewrite andb_false_r. cbn [andb].
            change (N.eqb SPACE QUOT || N.eqb SPACE APOSTROPHE)%bool with false. cbn iota. rewrite IH. reflexivity. }
        rewrite Q, E. apply trim_end_app, D1. }
  destruct R as (u & -> & R). rewrite indented_spaces by (rewrite Ex; exact N1). rewrite R. rewrite Ex at 1. cbn [app]. rewrite (proj2 (N.eqb_neq _ _) N2). reflexivity.
Qed.
Lemma tail_none : tail_ok [].
Proof. exists 0%nat, []. split; [auto|]. left. reflexivity. Qed.
Lemma tidied_line n x c : x = c :: tl x -> c <> SPACE -> c <> HASH -> calm x -> tight x -> content_line (repeat SPACE n ++ x) = [(n, x)].
Proof. intros E A B C D. pose proof (tidied x c [] E A B C D tail_none n) as Q. rewrite app_nil_r in Q. exact Q. Qed.

(** The printed lines with their indentations. *)
Definition group_content (kv : str * list str) : list line :=
  (2%nat, emit_scalar (fst kv) ++ [COLON]) :: map (fun v => (4%nat, [MINUS; SPACE] ++ emit_scalar v)) (snd kv).
Lemma emit_calm s : showable s -> calm (emit_scalar s) /\ tight (emit_scalar s).
Proof.
  intros H. unfold emit_scalar. destruct (need_quotes s) eqn:Q; [apply (quoted_calm _ s); apply (quoted_reads s []), H|].
  destruct (need_quotes_false s Q) as (c & r & E & S1 & S2 & I & X & M & D & F). split.
  - apply calm_chars. apply forallb_forall. intros x Ix. destruct (quoted_false x (no_quoted_char _ X x Ix)) as [A B]. apply negb_true_iff.
    destruct (in_text "#'""" x) eqn:Z; [|reflexivity]. apply existsb_exists in Z as (y & Y & Z). apply N.eqb_eq in Z. subst y. pose proof (in_text_false _ _ A) as A'. vm_compute in Y, A'. exfalso.
    destruct Y as [Y|[Y|[Y|[]]]]; subst x; [apply A'; tauto..|]. apply B. reflexivity.
  - apply (tight_last s c r E S2). intros J. pose proof (no_quoted_char _ X _ J) as J'. discriminate J'.
Qed.
Lemma key_content k : showable k -> content_line (key_line k) = [(2%nat, emit_scalar k ++ [COLON])].
Proof.
  intros H. destruct (emit_first k H) as (c & r & E & S & A & _). apply (tidied_line 2 _ c); [rewrite E; reflexivity|exact S|exact A| |].
  - apply calm_app; [apply emit_calm, H|apply calm_chars; reflexivity|discriminate].
  - exists (emit_scalar k), COLON. split; [reflexivity|split; discriminate].
Qed.
Lemma item_content v : showable v -> content_line (item_line v) = [(4%nat, [MINUS; SPACE] ++ emit_scalar v)].
Proof.
  intros H. destruct (emit_first v H) as (c & r & E & S & A & _). apply (tidied_line 4 _ MINUS); [reflexivity|discriminate|discriminate| |].
  - apply calm_app; [apply calm_chars; reflexivity|apply emit_calm, H|]. rewrite E. intros Q. injection Q as Q. exact (A Q).
  - apply tight_app, emit_calm, H.
Qed.
Lemma groups_content gs : Forall (fun kv => showable (fst kv) /\ Forall showable (snd kv)) gs -> flat_map content_line (flat_map group_lines gs) = flat_map group_content gs.
Proof.
  induction 1 as [|[k vs] gs [H V] F IH]; [reflexivity|]. cbn [flat_map]. rewrite flat_map_app, IH. f_equal. unfold group_lines, group_content. cbn [fst snd flat_map] in *.
  rewrite (key_content k H). cbn [app]. f_equal. clear -V. induction V as [|v vs Hv V IH]; [reflexivity|]. cbn [map flat_map]. rewrite (item_content v Hv), IH. reflexivity.
Qed.
Lemma corr_content gs n : gs <> [] -> Forall (fun kv => snd kv <> []) gs -> Forall (fun kv => showable (fst kv) /\ Forall showable (snd kv)) gs ->
  content_lines (emit_corr gs ++ repeat NEWLINE n) = (0%nat, lit "---") :: (0%nat, lit "items:") :: flat_map group_content gs.
Proof.
  intros N F K. unfold content_lines. change (flat_map content_line (split NEWLINE (emit_corr gs ++ repeat NEWLINE n)) = (0%nat, lit "---") :: (0%nat, lit "items:") :: flat_map group_content gs).
  rewrite (emit_lines gs n N F). cbn [flat_map]. change (content_line (lit "---")) with [(0%nat, lit "---")]. change (content_line (lit "items:")) with [(0%nat, lit "items:")].
  cbn [app]. do 2 f_equal. rewrite flat_map_app, (groups_content gs K).
  assert (Z : flat_map content_line (repeat [] n) = []) by (clear; induction n; [reflexivity|assumption]). rewrite Z. apply app_nil_r.
Qed.

(** ** Reading the lines *)
Lemma shallow_mono : forall d e v, (d <= e)%nat -> shallow d v = true -> shallow e v = true.
Proof.
  induction d as [|d IH]; intros e v L H; destruct v as [| | |s|l|l]; try (destruct e; reflexivity); try discriminate H; (destruct e as [|e]; [lia|]); cbn [shallow] in *;
    rewrite forallb_forall in *; intros x I; specialize (H x I); apply (IH e); auto; lia.
Qed.
Definition below (n : nat) (ls : list line) : Prop := match ls with (m, _) :: _ => (m < n)%nat | [] => True end.
Lemma cut_dash_line i c x : c <> SPACE -> cut_dash (MINUS :: SPACE :: repeat SPACE i ++ c :: x) = Some ((2 + i)%nat, c :: x).
Proof.
  intros H. unfold cut_dash. change (N.eqb MINUS MINUS) with true. change (N.eqb SPACE SPACE) with true. cbn iota. rewrite indented_spaces; [reflexivity|exact H].
Qed.
Lemma seq_reads vs : Forall showable vs -> forall f rest, (length vs + 2 <= f)%nat -> below 4 rest ->
  read_seq f 4 (map (fun v => (4%nat, [MINUS; SPACE] ++ emit_scalar v)) vs ++ rest) = Some (map YStr vs, rest).
Proof.
  induction 1 as [|v vs H F IH]; intros f rest Hf B.
  - destruct f as [|f]; [cbn in Hf; lia|]. cbn [map app]. destruct rest as [|[m s] rest]; [reflexivity|]. cbn [read_seq]. cbn in B.
    rewrite (proj2 (Nat.ltb_lt m 4) B). reflexivity.
  - cbn [length] in Hf. destruct f as [|f]; [lia|]. destruct (emit_first v H) as (c & r & E & S1 & _). cbn [map]. rewrite <- app_comm_cons. cbn [read_seq].
    change (Nat.ltb 4 4) with false. change (Nat.eqb 4 4) with true. cbn iota.
    assert (D : cut_dash ([MINUS; SPACE] ++ emit_scalar v) = Some (2%nat, emit_scalar v)) by (rewrite E; exact (cut_dash_line 0 c r S1)).
    rewrite D. rewrite E at 1. cbn iota. destruct f as [|f]; [lia|]. cbn [read_node]. pose proof (cut_dash_emit v [] H) as D2. rewrite app_nil_r in D2. rewrite D2, (cut_key_none v H), (inline_emit v H).
    rewrite (IH (S f) rest); [reflexivity|lia|exact B].
Qed.
Definition group_value (kv : str * list str) : yval * yval := (YStr (fst kv), YSeq (map YStr (snd kv))).
Lemma fresh_str k seen : ~ In (YStr k) seen -> fresh (YStr k) seen = true.
Proof.
  intros H. cbn [fresh]. apply negb_true_iff. destruct (existsb _ seen) eqn:E; [|reflexivity]. exfalso. apply existsb_exists in E as (x & I & E).
  destruct x; try discriminate E. apply str_eqb_eq in E. subst s. exact (H I).
Qed.
Lemma map_reads gs : Forall (fun kv => showable (fst kv) /\ key_fits (fst kv) /\ snd kv <> [] /\ Forall showable (snd kv)) gs ->
  forall f seen, (2 * length (flat_map group_content gs) + 4 <= f)%nat -> NoDup (map fst gs) -> (forall k, In k (map fst gs) -> ~ In (YStr k) seen) ->
  read_map f 2 seen (flat_map group_content gs) = Some (map group_value gs, []).
Proof.
  induction 1 as [|[k vs] gs (K & L & V & W) F IH]; intros f seen Hf ND NS.
  - destruct f; [cbn in Hf; lia|reflexivity].
  - cbn [fst snd] in *. cbn [map] in ND, NS. inversion ND; subst. cbn [flat_map fst snd group_content app List.length] in Hf. rewrite app_length, map_length in Hf.
    destruct f as [|f]; [lia|]. cbn [flat_map]. unfold group_content at 1. cbn [fst snd]. rewrite <- app_comm_cons. cbn [read_map].
    change (Nat.ltb 2 2) with false. change (Nat.eqb 2 2) with true. cbn iota. rewrite (cut_key_emit k K L), fresh_str by (apply NS; left; reflexivity).
    change (skip_spaces []) with ([] : str). cbn iota.
    assert (X : read_node f (map (fun v => (4%nat, [MINUS; SPACE] ++ emit_scalar v)) vs ++ flat_map group_content gs) = Some (YSeq (map YStr vs), flat_map group_content gs)).
    { assert (B : below 4 (flat_map group_content gs)) by (destruct gs as [|[k' vs'] gs']; cbn; [exact I|lia]).
      destruct f as [|f]; [lia|]. pose proof (seq_reads vs W f (flat_map group_content gs)) as Q. destruct vs as [|v vs]; [destruct V; reflexivity|].
      cbn [map] in Q |- *. rewrite <- app_comm_cons in Q |- *. cbn [read_node]. inversion W; subst. destruct (emit_first v) as (c & r & E & S1 & _); [assumption|].
      assert (D : cut_dash ([MINUS; SPACE] ++ emit_scalar v) = Some (2%nat, emit_scalar v)) by (rewrite E; exact (cut_dash_line 0 c r S1)).
      rewrite D, Q; [reflexivity| |exact B]. cbn [List.length] in *. lia. }
    destruct vs as [|v vs]; [destruct V; reflexivity|]. cbn [map] in X |- *. rewrite <- app_comm_cons in X |- *. change (Nat.ltb 2 4) with true. cbn iota. rewrite X.
    rewrite IH; [reflexivity| |assumption|].
    + cbn [List.length] in *. lia.
    + intros k' I [J|J]; [injection J as <-; contradiction|]. exact (NS k' (or_intror I) J).
Qed.

(** A printed correspondence is read back. *)
Definition groups_ok (gs : list (str * list str)) : Prop :=
  NoDup (map fst gs) /\ Forall (fun kv => showable (fst kv) /\ key_fits (fst kv) /\ snd kv <> [] /\ Forall showable (snd kv)) gs.
Lemma content_length gs : (length (flat_map group_content gs) <= length (emit_groups 1 gs))%nat.
Proof.
  destruct gs as [|g gs]; [cbn; lia|]. unfold emit_groups. generalize (g :: gs). clear. intros gs. induction gs as [|[k vs] gs IH]; [cbn; lia|].
  cbn [flat_map]. rewrite !app_length. assert (L : (length (group_content (k, vs)) <= length ([NEWLINE] ++ indentation 1 ++ emit_scalar (fst (k, vs)) ++ [COLON] ++ emit_sequence 2 (snd (k, vs))))%nat); [|rewrite !app_length in L; lia].
  unfold group_content. cbn [fst snd List.length]. rewrite map_length, !app_length. cbn [List.length].
  assert (Q : (length vs <= length (emit_sequence 2 vs))%nat); [|lia]. unfold emit_sequence. destruct vs as [|v vs]; [cbn; lia|]. generalize (v :: vs). clear.
  intros vs. induction vs as [|v vs IH]; [cbn; lia|]. cbn [flat_map]. rewrite !app_length. cbn [List.length]. lia.
Qed.
Lemma document_reads gs n : groups_ok gs ->
  read_document (emit_corr gs ++ repeat NEWLINE n) = Some (YMap [(YStr (lit "items"), YMap (map group_value gs))]).
Proof.
  intros [ND F]. unfold read_document. destruct gs as [|g gs0] eqn:G.
  - assert (E : content_lines (emit_corr [] ++ repeat NEWLINE n) = [(0%nat, lit "---"); (0%nat, lit "items: {}")]).
    { unfold content_lines. change (emit_corr []) with (lit "---" ++ lines_text [lit "items: {}"]).
      assert (R : repeat NEWLINE n = lines_text (repeat [] n)) by (clear; induction n; cbn [repeat lines_text flat_map app]; f_equal; assumption).
      rewrite R, <- app_assoc, <- lines_text_app, split_lines_text.
      - cbn [flat_map app]. change (flat_map _ (repeat [] n)) with (flat_map content_line (repeat [] n)).
        assert (Z : flat_map content_line (repeat [] n) = []) by (clear; induction n; [reflexivity|assumption]). rewrite Z. reflexivity.
      - vm_compute; intros H; repeat (destruct H as [H|H]; [discriminate H|]); exact H.
      - cbn [app]. constructor; [vm_compute; intros H; repeat (destruct H as [H|H]; [discriminate H|]); exact H|].
        apply Forall_forall. intros l H. apply repeat_spec in H. subst l. intros []. }
    rewrite E. reflexivity.
  - rewrite <- G in *. assert (N : gs <> []) by (rewrite G; discriminate). clear G.
    rewrite (corr_content gs n N); [| |].
    2: { eapply Forall_impl; [|exact F]. intros kv H. apply H. }
    2: { eapply Forall_impl; [|exact F]. intros kv H. cbn beta in *. tauto. }
    change (Nat.eqb 0 0 && str_eqb (lit "---") (lit "---"))%bool with true. cbn iota.
    set (f := (4 * length (emit_corr gs ++ repeat NEWLINE n))%nat).
    assert (Hf : (2 * length (flat_map group_content gs) + 8 <= f)%nat).
    { subst f. pose proof (content_length gs) as L. unfold emit_corr. rewrite !app_length. change (length (lit "---")) with 3%nat. change (length (lit "items:")) with 6%nat. lia. }
    clearbody f. pose (D := YMap [(YStr (lit "items"), YMap (map group_value gs))]).
    match goal with |- context [read_node (S f) ?l] => assert (R : read_node (S f) l = Some (D, [])) end.
    { cbn [read_node]. change (cut_dash (lit "items:")) with (@None line). change (cut_key (lit "items:")) with (Some (YStr (lit "items"), [] : str)). cbn iota.
    destruct f as [|f]; [lia|]. cbn [read_map]. change (Nat.ltb 0 0) with false. change (Nat.eqb 0 0) with true. cbn iota.
    change (cut_key (lit "items:")) with (Some (YStr (lit "items"), [] : str)). change (fresh (YStr (lit "items")) []) with true. change (skip_spaces []) with ([] : str). cbn iota.
    assert (Hd : exists k r, flat_map group_content gs = (2%nat, emit_scalar k ++ [COLON]) :: r /\ showable k /\ key_fits k).
    { destruct gs as [|[k vs] gs']; [destruct N; reflexivity|]. inversion F as [|? ? (K & L & _) _]; subst. cbn [fst] in K, L.
      exists k. eexists. split; [reflexivity|auto]. }
    destruct Hd as (k & r & E & K & L).
    assert (X : read_node f (flat_map group_content gs) = Some (YMap (map group_value gs), [])).
    { destruct f as [|f]; [lia|]. pose proof (map_reads gs F f []) as Q. rewrite E in *. cbn [read_node].
      rewrite (cut_dash_emit k [COLON] K), (cut_key_emit k K L), Q; [reflexivity| |exact ND|intros ? ? []]. lia. }
    rewrite E in *. change (Nat.ltb 0 2) with true. cbn iota. rewrite X. destruct f as [|f]; [lia|]. reflexivity. }
    assert (Sh : shallow 100 D = true); [|rewrite R, Sh; reflexivity]. unfold D.
    apply (shallow_mono 3); [lia|]. cbn [shallow forallb snd andb]. rewrite andb_true_r. apply forallb_forall. intros kv I. apply in_map_iff in I as ([k' vs] & <- & _). cbn [group_value fst snd shallow].
    apply forallb_forall. intros v J. apply in_map_iff in J as (x & <- & _). reflexivity.
Qed.
(** ** One entry per line *)
(** [K] is a way to write the key [k]. *)
Definition key_written (K : str) (k : yval) : Prop := no_newline K /\ (exists c r, K = c :: r /\ c <> SPACE /\ c <> HASH) /\
  (forall x, cut_dash (K ++ COLON :: x) = None) /\ (forall x, after_colon x = true -> cut_key (K ++ COLON :: x) = Some (k, x)) /\ calm K.
(** [V] is a way to write the value [v]. *)
Definition value_written (V : str) (v : yval) : Prop := no_newline V /\ (exists c r, V = c :: r /\ c <> SPACE /\ c <> HASH) /\ read_inline V = Some v /\ calm V /\ tight V.
Definition entry := (str * yval * (str * yval))%type.
Definition entry_line (e : entry) : str := indentation 1 ++ fst (fst e) ++ [COLON; SPACE] ++ fst (snd e).
Definition entry_content (e : entry) : line := (2%nat, fst (fst e) ++ [COLON; SPACE] ++ fst (snd e)).
Definition entry_value (e : entry) : yval * yval := (snd (fst e), snd (snd e)).
Definition entry_ok (e : entry) : Prop := key_written (fst (fst e)) (snd (fst e)) /\ value_written (fst (snd e)) (snd (snd e)) /\ shallow 1 (snd (snd e)) = true.
Definition entries_text (es : list entry) : str := lit "items:" ++ lines_text (map entry_line es) ++ [NEWLINE].
Fixpoint all_fresh (seen : list yval) (ks : list yval) : Prop :=
  match ks with [] => True | k :: r => fresh k seen = true /\ all_fresh (k :: seen) r end.
Lemma emitted_key s : showable s -> key_fits s -> key_written (emit_scalar s) (YStr s).
Proof.
  intros H K. destruct (emit_first s H) as (c & r & E & S1 & A & _). split; [apply emit_no_newline|]. split; [exists c, r; auto|].
  split; [intros x; apply cut_dash_emit, H|]. split; [intros x X; apply cut_key_emit_rest; auto|apply emit_calm, H].
Qed.
Lemma emitted_value s : showable s -> value_written (emit_scalar s) (YStr s).
Proof.
  intros H. destruct (emit_first s H) as (c & r & E & S1 & A & _). split; [apply emit_no_newline|]. split; [exists c, r; auto|]. split; [apply inline_emit, H|apply emit_calm, H].
Qed.
Lemma entries_read es : Forall entry_ok es -> forall f seen, (length es + 2 <= f)%nat -> all_fresh seen (map (fun e : entry => snd (fst e)) es) ->
  read_map f 2 seen (map entry_content es) = Some (map entry_value es, []).
Proof.
  induction 1 as [|[[K k] [V v]] es (W & U & _) F IH]; intros f seen Hf A.
  - destruct f; [cbn in Hf; lia|reflexivity].
  - cbn [length fst snd map all_fresh] in *. destruct A as [A1 A2]. destruct f as [|f]; [lia|]. cbn [map read_map]. unfold entry_content at 1. cbn [fst snd].
    change (Nat.ltb 2 2) with false. change (Nat.eqb 2 2) with true. cbn iota. destruct W as (_ & _ & _ & W & _). change (K ++ [COLON; SPACE] ++ V) with (K ++ COLON :: SPACE :: V).
    rewrite W by reflexivity. rewrite A1. destruct U as (_ & (c & r & E & S1 & _) & U & _). assert (X : skip_spaces (SPACE :: V) = V).
    { unfold skip_spaces. cbn [trim_start_matches]. change (N.eqb SPACE SPACE) with true. cbn iota. rewrite E. cbn [trim_start_matches]. apply N.eqb_neq in S1. rewrite S1. reflexivity. }
    rewrite X. rewrite E at 1. cbn iota. rewrite <- E at 1. rewrite U. cbn [option_map]. rewrite (IH f (k :: seen)); [reflexivity|lia|exact A2].
Qed.
Lemma entry_line_content e : entry_ok e -> content_line (entry_line e) = [entry_content e].
Proof.
  destruct e as [[K k] [V v]]. intros [(_ & (c & r & E & S1 & A) & _ & _ & C) [(_ & (d & q & Ev & _ & Nv) & _ & Cv & Tv) _]]. cbn [fst snd] in *. unfold entry_line, entry_content, indentation. cbn [fst snd].
  apply (tidied_line 2 _ c); [rewrite E; reflexivity|exact S1|exact A| |].
  - apply calm_app; [exact C| |discriminate]. apply calm_app; [apply calm_chars; reflexivity|exact Cv|]. rewrite Ev. intros Q. injection Q as Q. exact (Nv Q).
  - apply tight_app, tight_app, Tv.
Qed.
Lemma entries_document es : es <> [] -> Forall entry_ok es -> all_fresh [] (map (fun e : entry => snd (fst e)) es) ->
  read_document (entries_text es) = Some (YMap [(YStr (lit "items"), YMap (map entry_value es))]).
Proof.
  intros N F A. unfold read_document.
  assert (C : content_lines (entries_text es) = (0%nat, lit "items:") :: map entry_content es).
  { unfold entries_text. change [NEWLINE] with (lines_text [[]]). rewrite <- lines_text_app. unfold content_lines.
    rewrite split_lines_text; [|vm_compute; intros H; repeat (destruct H as [H|H]; [discriminate H|]); exact H|].
    - cbn [flat_map]. change (flat_map _ (map entry_line es ++ [[]])) with (flat_map content_line (map entry_line es ++ [[]])). rewrite flat_map_app.
      change (flat_map content_line [[]]) with (@nil line). rewrite app_nil_r. cbn [app]. change (content_line (lit "items:")) with [(0%nat, lit "items:")].
      cbn. f_equal. clear - F. induction F as [|e es H F IH]; [reflexivity|]. cbn [map flat_map]. rewrite (entry_line_content e H). cbn [app]. f_equal. exact IH.
    - apply Forall_app. split; [|constructor; [intros []|constructor]]. apply Forall_forall. intros l I. apply in_map_iff in I as ([[K k] [V v]] & <- & I).
      rewrite Forall_forall in F. destruct (F _ I) as [(Hn & _) [(Hv & _) _]]. cbn [fst snd] in Hn, Hv. unfold entry_line. cbn [fst snd]. apply no_newline_app; [apply spaces_no_newline|].
      apply no_newline_app; [exact Hn|]. apply no_newline_app; [intros [H|[H|[]]]; discriminate H|exact Hv]. }
  rewrite C. change (Nat.eqb 0 0 && str_eqb (lit "items:") (lit "---"))%bool with false. cbn iota.
  set (f := (4 * length (entries_text es))%nat).
  assert (Hf : (length es + 8 <= f)%nat).
  { subst f. unfold entries_text. rewrite !app_length. change (length (lit "items:")) with 6%nat. cbn [List.length].
    assert (Q : (length es <= length (lines_text (map entry_line es)))%nat); [|lia]. clear. induction es as [|e es IH]; [cbn; lia|].
    cbn [map lines_text flat_map]. rewrite app_length. cbn [List.length]. fold (lines_text (map entry_line es)). lia. }
  clearbody f. pose (D := YMap [(YStr (lit "items"), YMap (map entry_value es))]).
  match goal with |- context [read_node (S f) ?l] => assert (R : read_node (S f) l = Some (D, [])) end.
  { cbn [read_node]. change (cut_dash (lit "items:")) with (@None line). change (cut_key (lit "items:")) with (Some (YStr (lit "items"), [] : str)). cbn iota.
  destruct f as [|f]; [lia|]. cbn [read_map]. change (Nat.ltb 0 0) with false. change (Nat.eqb 0 0) with true. cbn iota.
  change (cut_key (lit "items:")) with (Some (YStr (lit "items"), [] : str)). change (fresh (YStr (lit "items")) []) with true. change (skip_spaces []) with ([] : str). cbn iota.
  assert (X : read_node f (map entry_content es) = Some (YMap (map entry_value es), [])).
  { destruct f as [|f]; [lia|]. pose proof (entries_read es F f []) as Q. destruct es as [|[[K k] [V v]] es']; [destruct N; reflexivity|].
    inversion F as [|? ? [(_ & _ & Dh & W & _) _] _]; subst. cbn [fst snd] in Dh, W. cbn [map] in Q |- *. unfold entry_content at 1. cbn [fst snd]. cbn [read_node].
    change (K ++ [COLON; SPACE] ++ V) with (K ++ COLON :: SPACE :: V). rewrite Dh, W by reflexivity.
    change (2%nat, K ++ COLON :: SPACE :: V) with (entry_content ((K, k), (V, v))). rewrite Q; [reflexivity| |exact A]. lia. }
  destruct es as [|e es']; [destruct N; reflexivity|]. cbn [map] in X |- *. unfold entry_content at 1. change (Nat.ltb 0 2) with true. cbn iota.
  change (2%nat, fst (fst e) ++ [COLON; SPACE] ++ fst (snd e)) with (entry_content e). rewrite X. destruct f as [|f]; [lia|]. reflexivity. }
  assert (Sh : shallow 100 D = true); [|rewrite R, Sh; reflexivity]. unfold D.
  apply (shallow_mono 3); [lia|]. cbn [shallow forallb snd andb]. rewrite andb_true_r.
  apply forallb_forall. intros kv I. apply in_map_iff in I as ([[K k] [V v]] & <- & I). rewrite Forall_forall in F. destruct (F _ I) as [_ [_ RI]]. cbn [fst snd] in RI. cbn [entry_value snd].
  exact RI.
Qed.
Lemma strings_fresh ks : NoDup ks -> forall seen, (forall k, In k ks -> ~ In (YStr k) seen) -> all_fresh seen (map YStr ks).
Proof.
  induction 1 as [|k ks N H IH]; intros seen S; [exact I|]. cbn [map all_fresh]. split; [apply fresh_str, S; left; reflexivity|].
  apply IH. intros k' I [J|J]; [injection J as <-; contradiction|]. exact (S k' (or_intror I) J).
Qed.

(** ** Flow sequences *)
Definition stop_first (rest : str) : Prop := match rest with [] => True | d :: _ => in_text ",[]{}:?" d = true end.
Lemma stop_not_space rest : stop_first rest -> match rest with [] => True | d :: _ => d <> SPACE end.
Proof. destruct rest as [|d r]; [exact (fun x => x)|]. intros H ->. discriminate H. Qed.
Lemma skip_spaces_app i V : (match V with [] => True | c :: _ => c <> SPACE end) -> skip_spaces (repeat SPACE i ++ V) = V.
Proof.
  intros H. unfold skip_spaces. induction i as [|i IH].
  - cbn [repeat app]. destruct V as [|c V]; [reflexivity|]. cbn [trim_start_matches]. rewrite (proj2 (N.eqb_neq c SPACE) H). reflexivity.
  - cbn [repeat app trim_start_matches]. change (N.eqb SPACE SPACE) with true. cbn iota. exact IH.
Qed.
(** [t] is read as [v] inside a flow collection. *)
Definition flows (t : str) (v : yval) : Prop := forall j rest, stop_first rest -> flow_scalar (t ++ repeat SPACE j ++ rest) = Some (v, rest).
Lemma cut_flow_app x rest : forallb (fun c => negb (in_text ",[]{}:?" c)) x = true -> stop_first rest -> cut_flow (x ++ rest) = (x, rest).
Proof.
  intros H R. induction x as [|c x IH].
  - cbn [app]. destruct rest as [|d r]; [reflexivity|]. cbn [cut_flow]. cbn [stop_first] in R. rewrite R. reflexivity.
  - cbn [forallb] in H. apply andb_true_iff in H as [H1 H2]. apply negb_true_iff in H1. cbn [app cut_flow]. rewrite H1, (IH H2). reflexivity.
Qed.
Lemma plain_parts t : plain_text t = true -> exists c r, t = c :: r /\ c <> QUOT /\ c <> APOSTROPHE /\ c <> SPACE /\ c <> HASH /\ c <> MINUS /\ c <> LBRACKET /\ c <> LBRACE /\ last t c <> SPACE /\
  forallb (fun c => negb (in_text ",[]{}:" c)) t = true /\ ~ In RETURN t /\ ~ In HASH t /\ ~ In COLON t /\ ~ In NEWLINE t.
Proof.
  intros H. destruct t as [|c r]; [discriminate H|]. exists c, r. split; [reflexivity|]. unfold plain_text in H. rewrite !andb_true_iff, !negb_true_iff, !N.eqb_neq in H. destruct H as [[H1 H3] H4].
  rewrite forallb_forall in H4. assert (A : forall x, In x (c :: r) -> printable x = true /\ in_text ":#,[]{}`'""\" x = false).
  { intros x I. apply H4 in I. apply andb_true_iff in I as [I1 I2]. apply negb_true_iff in I2. auto. }
  assert (B : forall x, in_text ":#,[]{}`'""\" x = false -> x <> HASH /\ x <> COLON /\ x <> LBRACKET /\ x <> LBRACE /\ in_text ",[]{}:" x = false /\ x <> QUOT /\ x <> APOSTROPHE).
  { intros x I. pose proof (in_text_false _ _ I) as N. repeat split; try (intros ->; apply N; vm_compute; tauto). apply (in_text_incl _ _ x I). incl. }
  pose proof (in_text_false _ _ H1) as N1. destruct (A c (or_introl eq_refl)) as [_ Ac]. destruct (B c Ac) as (B1 & B2 & B3 & B4 & _ & B5 & B6).
  split; [exact B5|]. split; [exact B6|]. split; [intros ->; apply N1; vm_compute; tauto|]. split; [exact B1|]. split; [intros ->; apply N1; vm_compute; tauto|]. split; [exact B3|]. split; [exact B4|]. split; [exact H3|].
  split; [apply forallb_forall; intros x I; apply negb_true_iff; apply A in I as [_ I]; apply B, I|].
  split; [intros I; apply A in I as [I _]; discriminate I|]. split; [intros I; apply A in I as [_ I]; apply B in I; destruct I as (I & _); apply I; reflexivity|].
  split; [intros I; apply A in I as [_ I]; apply B in I; destruct I as (_ & I & _); apply I; reflexivity|]. intros I; apply A in I as [I _]; discriminate I.
Qed.
Lemma plain_flows t v : read_plain t = Some v -> ~ In 0x3F%N t -> flows t v.
Proof.
  intros R NQ j rest S. assert (P : plain_text t = true) by (unfold read_plain in R; destruct (plain_text t); [reflexivity|discriminate R]).
  destruct (plain_parts t P) as (c & r & E & N1 & N2 & _ & _ & _ & _ & _ & L & F0 & _). unfold flow_scalar. rewrite E at 1. cbn [app].
  assert (F : forallb (fun c => negb (in_text ",[]{}:?" c)) t = true).
  { apply forallb_forall. intros x I. rewrite forallb_forall in F0. pose proof (F0 x I) as X. apply negb_true_iff in X. apply negb_true_iff. pose proof (in_text_false _ _ X) as X'. destruct (in_text ",[]{}:?" x) eqn:Q; [|reflexivity]. exfalso.
    apply existsb_exists in Q as (y & Iy & Ey). apply N.eqb_eq in Ey. subst y. destruct (N.eq_dec x 0x3F) as [->|NX]; [exact (NQ I)|]. revert Iy X'. vm_compute. intros Iy X'. repeat (destruct Iy as [Iy|Iy]; [first [apply X'; tauto|apply NX; symmetry; exact Iy]|]). exact Iy. }
  rewrite (proj2 (N.eqb_neq _ _) N1), (proj2 (N.eqb_neq _ _) N2). rewrite app_assoc, cut_flow_app; [|rewrite forallb_app, F; apply forallb_forall; intros x I; apply repeat_spec in I; subst x; reflexivity|exact S].
  assert (T : trim_end_matches SPACE (t ++ repeat SPACE j) = t).
  { pose proof (app_removelast_last c (l := t)) as Q. rewrite Q by (rewrite E; discriminate). apply trim_end_app, L. }
  rewrite T, R. reflexivity.
Qed.
Lemma repeat_stop j rest : stop_first rest -> match repeat SPACE j ++ rest with [] => True | d :: _ => d <> APOSTROPHE end.
Proof. intros S. destruct j; [|discriminate]. cbn [repeat app]. destruct rest; [exact I|]. intros ->. discriminate S. Qed.
(** [t] is an element: read as [v] at the start of the remaining text, within any fuel that suffices. *)
Definition flow_node (t : str) (v : yval) : Prop := forall f j rest, stop_first rest -> (2 * List.length t <= f)%nat -> read_flow f (t ++ repeat SPACE j ++ rest) = Some (v, rest).
Lemma flows_node t v : flows t v -> (exists c r, t = c :: r /\ c <> LBRACKET /\ c <> LBRACE) -> flow_node t v.
Proof.
  intros H (c & r & E & N1 & N2) f j rest S L. destruct f as [|f]; [rewrite E in L; cbn in L; lia|]. rewrite <- (H j rest S). rewrite E. cbn [app read_flow].
  rewrite (proj2 (N.eqb_neq _ _) N1), (proj2 (N.eqb_neq _ _) N2). reflexivity.
Qed.
