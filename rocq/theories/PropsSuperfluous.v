(** C103: modifiers that can be left out. *)
From Coq Require Import String.
From Verif Require Import Base BaseFacts Utf8 StrOps Position Converter Eliminator Reducer Dotted TrimMod ModifierKind ChanomaModel
  Spec ConverterFacts SimpleFacts ConverterProps SimpleProps PropsConverter PropsSimple PropsPipeline NeoFacts NeoProps CommProps PropsComm SuperfluousSpec.
Local Open Scope string_scope.
Local Open Scope list_scope.

(** The second of two neighbouring modifiers does nothing, for any text; the first makes no difference. *)
Definition second_idle (a b : modifier) : Prop := forall s out, valid_str s -> (result [a; b] s out <-> result [a] s out).
Definition first_idle (a b : modifier) : Prop := forall s out, valid_str s -> (result [a; b] s out <-> result [b] s out).
Definition makes (m : modifier) (c d : char) : Prop := result [m] [c] [d].

Lemma second_iff a b f g : does a f -> does b g -> (second_idle a b <-> forall s, valid_str s -> g (f s) = f s).
Proof.
  intros A B. unfold second_idle. split.
  - intros H s V. apply A, (H s _ V), (does_two _ _ _ _ A B). reflexivity.
  - intros H s out V. rewrite (does_two _ _ _ _ A B), (A s out), (H s V). reflexivity.
Qed.
Lemma first_iff a b f g : does a f -> does b g -> (first_idle a b <-> forall s, valid_str s -> g (f s) = g s).
Proof.
  intros A B. unfold first_idle. split.
  - intros H s V. apply B, (H s _ V), (does_two _ _ _ _ A B). reflexivity.
  - intros H s out V. rewrite (does_two _ _ _ _ A B), (B s out), (H s V). reflexivity.
Qed.
Lemma makes_conv cc c d : makes (MConv cc) c d <-> d = conv1 cc c.
Proof. apply conv_single. Qed.
Definition does_what (m : modifier) : str -> str :=
  match m with
  | MConv cc => map (conv1 cc)
  | MElim el => filter (fun c => negb (mem N.eqb c el))
  | MRed k => red_rec k false
  | MDot => dot_rec SPACE false
  | MTrim => trim_modify
  | _ => fun s => s
  end.
Lemma plain_does m : plain m -> does m (does_what m).
Proof. destruct m; intros P; try contradiction; [apply does_conv|apply does_elim|apply does_red|apply does_dot|apply does_trim]. Qed.

(** ** What the modifiers do to some texts *)
Lemma trim_one z : z <> SPACE -> trim_modify [z] = [z].
Proof. intros D. apply trim_absent. intros [E|[]]. congruence. Qed.
Lemma trim_between l : trim_modify (97%N :: l ++ [97%N]) = 97%N :: l ++ [97%N].
Proof.
  apply (trimmed_unique (97%N :: l ++ [97%N])); [apply trim_modify_trimmed|]. split; [discriminate|]. split; [cbn [rev]; rewrite rev_app_distr; discriminate|].
  exists 0, 0. cbn [repeat app]. rewrite app_nil_r. reflexivity.
Qed.
Lemma trim_mid z : trim_modify [97%N; z; 97%N] = [97%N; z; 97%N].
Proof. exact (trim_between [z]). Qed.
Lemma trim_mid2 y z : trim_modify [97%N; y; z; 97%N] = [97%N; y; z; 97%N].
Proof. exact (trim_between [y; z]). Qed.
Lemma dot_one z : z <> SPACE -> dot_rec SPACE false [z] = [z].
Proof. intros D. apply dot_absent. intros [E|[]]. congruence. Qed.
Lemma dot_between z : dot_rec SPACE false [97%N; z; 97%N] = [97%N; z; 97%N].
Proof. cbn. destruct (N.eqb_spec z SPACE) as [->|]; reflexivity. Qed.
Lemma trim_space : trim_modify [SPACE] = [].
Proof. reflexivity. Qed.
Lemma red_one k z : red_rec k false [z] = [z].
Proof. cbn. destruct (N.eqb k z); reflexivity. Qed.
Lemma red_pair k : red_rec k false [k; k] = [k].
Proof. cbn. rewrite N.eqb_refl. reflexivity. Qed.
Lemma red_idem k s : red_rec k false (red_rec k false s) = red_rec k false s.
Proof.
  assert (G : forall b b', (b = true -> b' = true) -> red_rec k b (red_rec k b' s) = red_rec k b' s); [|apply G; discriminate].
  induction s as [|c s IH]; intros b b' I; [reflexivity|]. cbn [red_rec]. destruct (N.eqb_spec k c) as [->|D].
  - destruct b'; [apply IH; auto|]. destruct b; [discriminate (I eq_refl)|]. cbn [red_rec]. rewrite N.eqb_refl. f_equal. apply IH. auto.
  - cbn [red_rec]. rewrite (proj2 (N.eqb_neq k c) D). f_equal. apply IH. auto.
Qed.
Lemma dot_fix s : spaces_between s -> dot_rec SPACE false s = s.
Proof. intros H. apply (C16_dotted_fixpoints false no_order) in H. rewrite normalize_dot, dot_modify_rec in H. congruence. Qed.
Lemma dot_between' s : spaces_between (dot_rec SPACE false s).
Proof. apply (C16_dotted_shape false no_order false no_order s). rewrite normalize_dot, dot_modify_rec. reflexivity. Qed.
Lemma dot_idem s : dot_rec SPACE false (dot_rec SPACE false s) = dot_rec SPACE false s.
Proof. apply dot_fix, dot_between'. Qed.
Lemma dot_of_trim s : dot_rec SPACE false (trim_modify s) = dot_rec SPACE false s.
Proof.
  destruct (C16_dotted_subsumes false no_order s) as [E _].
  assert (A : result [MTrim; MDot] s (dot_rec SPACE false s)) by (exists no_order; rewrite E, normalize_dot, dot_modify_rec; reflexivity).
  apply (does_two _ _ _ _ does_trim does_dot) in A. symmetry. exact A.
Qed.
Lemma dot_of_red s : dot_rec SPACE false (red_rec SPACE false s) = dot_rec SPACE false s.
Proof.
  destruct (C16_dotted_subsumes false no_order s) as [_ E].
  assert (A : result [MRed space; MDot] s (dot_rec SPACE false s)) by (exists no_order; rewrite E, normalize_dot, dot_modify_rec; reflexivity).
  apply (does_two _ _ _ _ (does_red space) does_dot) in A. symmetry. exact A.
Qed.
Lemma trim_of_dot s : trim_modify (dot_rec SPACE false s) = dot_rec SPACE false s.
Proof.
  destruct (C16_dotted_shape false no_order false no_order s (dot_rec SPACE false s)) as (_ & H1 & H2 & _); [rewrite normalize_dot, dot_modify_rec; reflexivity|].
  apply (trimmed_unique (dot_rec SPACE false s)); [apply trim_modify_trimmed|]. split; [exact H1|]. split; [exact H2|]. exists 0, 0. cbn [repeat app]. rewrite app_nil_r. reflexivity.
Qed.
Lemma red_no_pair k s : (forall a b, s <> a ++ k :: k :: b) -> red_rec k false s = s.
Proof.
  assert (G : forall s b, (forall a r, s <> a ++ k :: k :: r) -> (b = true -> hd_error s <> Some k) -> red_rec k b s = s).
  { induction s0 as [|c s0 IH]; intros b P Q; [reflexivity|]. cbn [red_rec]. destruct (N.eqb_spec k c) as [->|D].
    - destruct b; [destruct (Q eq_refl); reflexivity|]. f_equal. apply IH; [intros a r E; apply (P (c :: a) r); rewrite E; reflexivity|].
      intros _. destruct s0 as [|d s0]; [discriminate|]. cbn. intros E. injection E as ->. exact (P [] s0 eq_refl).
    - f_equal. apply IH; [intros a r E; apply (P (c :: a) r); rewrite E; reflexivity|discriminate]. }
  intros P. apply G; [exact P|discriminate].
Qed.
Lemma red_of_dot s : red_rec SPACE false (dot_rec SPACE false s) = dot_rec SPACE false s.
Proof.
  destruct (C16_dotted_shape false no_order false no_order s (dot_rec SPACE false s)) as (_ & _ & _ & H & _); [rewrite normalize_dot, dot_modify_rec; reflexivity|].
  apply red_no_pair, H.
Qed.
Lemma trim_idem s : trim_modify (trim_modify s) = trim_modify s.
Proof.
  destruct (trim_modify_trimmed s) as (A & B & _). apply (trimmed_unique (trim_modify s)); [apply trim_modify_trimmed|]. split; [exact A|]. split; [exact B|].
  exists 0, 0. cbn [repeat app]. rewrite app_nil_r. reflexivity.
Qed.
Lemma map_same (f : char -> char) s : (forall c, In c s -> f c = c) -> map f s = s.
Proof. intros H. rewrite <- (map_id s) at 2. apply map_ext_in. exact H. Qed.
Lemma filter_same (q : char -> bool) s : (forall c, In c s -> q c = true) -> filter q s = s.
Proof. induction s as [|c s IH]; intros H; [reflexivity|]. cbn [filter]. rewrite (H c (or_introl eq_refl)). f_equal. apply IH. intros d I. apply H. right. exact I. Qed.
Lemma filter_kept (q : char -> bool) s : filter q s = s -> forall c, In c s -> q c = true.
Proof. intros E c I. rewrite <- E in I. apply filter_In in I. tauto. Qed.
Lemma not_mem c el : negb (mem N.eqb c el) = true <-> ~ In c el.
Proof. rewrite negb_true_iff. apply mem_not. Qed.
Lemma valid_In s : valid_str s -> forall c, In c s -> is_scalar c = true.
Proof. unfold valid_str. rewrite Forall_forall. auto. Qed.

Theorem C103_behind : forall a b, plain a -> plain b -> (second_idle a b <-> behind makes a b).
Proof.
  intros a b Pa Pb. rewrite (second_iff _ _ _ _ (plain_does a Pa) (plain_does b Pb)).
  assert (One : forall cc, keeps_all makes (MConv cc) <-> forall c, is_scalar c = true -> conv1 cc c = c).
  { intros cc. split; intros H c S; [symmetry; apply makes_conv, H, S|apply makes_conv; symmetry; apply H, S]. }
  destruct a as [cc|el|k| |?| |?]; try contradiction; destruct b as [cc'|el'|k'| |?| |?]; try contradiction; cbn [behind does_what]; rewrite ?One; clear One; cbn [plain] in Pa, Pb.
  (* conversion *)
  - split.
    + intros H c d S M. apply makes_conv in M. subst d. apply makes_conv. specialize (H [c] (valid1 c S)). cbn [map] in H. congruence.
    + intros H s V. rewrite map_map. apply map_ext_in. intros c I. symmetry. apply makes_conv. apply (H c); [exact (valid_In s V c I)|apply makes_conv; reflexivity].
  - split.
    + intros H c d S M. apply makes_conv in M. subst d. apply not_mem. apply (filter_kept _ _ (H [c] (valid1 c S))). left. reflexivity.
    + intros H s V. apply filter_same. intros d I. apply in_map_iff in I as (c & <- & I). apply not_mem, (H c); [exact (valid_In s V c I)|apply makes_conv; reflexivity].
  - split.
    + intros H c d S M ->. apply makes_conv in M. assert (V : valid_str [c; c]) by valid. specialize (H _ V). cbn [map] in H. rewrite <- M, red_pair in H. discriminate.
    + intros H s V. apply red_absent. intros I. apply in_map_iff in I as (c & E & I). apply (H c k'); [exact (valid_In s V c I)|apply makes_conv; symmetry; exact E|reflexivity].
  - split.
    + intros H c d S M ->. apply makes_conv in M. specialize (H [c] (valid1 c S)). cbn [map] in H. rewrite <- M in H. discriminate H.
    + intros H s V. apply dot_absent. intros I. apply in_map_iff in I as (c & E & I). apply (H c SPACE); [exact (valid_In s V c I)|apply makes_conv; symmetry; exact E|reflexivity].
  - split.
    + intros H c d S M ->. apply makes_conv in M. specialize (H [c] (valid1 c S)). cbn [map] in H. rewrite <- M in H. discriminate H.
    + intros H s V. apply trim_absent. intros I. apply in_map_iff in I as (c & E & I). apply (H c SPACE); [exact (valid_In s V c I)|apply makes_conv; symmetry; exact E|reflexivity].
  (* elimination *)
  - split.
    + intros H c S N. apply makes_conv. specialize (H [c] (valid1 c S)). cbn [filter] in H. rewrite (proj2 (not_mem c el) N) in H. cbn [map] in H. congruence.
    + intros H s V. apply map_same. intros c I. apply filter_In in I as [I N]. symmetry. apply makes_conv, H; [exact (valid_In s V c I)|apply not_mem, N].
  - split.
    + intros H x I. destruct (mem N.eqb x el) eqn:M; [apply mem_In, M|exfalso]. specialize (H [x] (valid1 x (valid_In _ Pb x I))). cbn [filter] in H. rewrite M in H. cbn [negb filter] in H.
      rewrite (proj2 (mem_In x el') I) in H. discriminate.
    + intros H s V. apply filter_same. intros c I. apply filter_In in I as [_ N]. apply not_mem. intros J. apply (proj1 (not_mem c el) N), H, J.
  - split.
    + intros H. destruct (mem N.eqb k' el) eqn:M; [apply mem_In, M|exfalso]. assert (V : valid_str [k'; k']) by valid. specialize (H _ V). cbn [filter] in H. rewrite M in H. cbn [negb] in H. rewrite red_pair in H. discriminate.
    + intros H s V. apply red_absent. apply filter_absent. rewrite (proj2 (mem_In k' el) H). reflexivity.
  - split.
    + intros H. destruct (mem N.eqb space el) eqn:M; [apply mem_In, M|exfalso]. specialize (H _ (valid1 space scalar_space)). cbn [filter] in H. rewrite M in H. discriminate.
    + intros H s V. apply dot_absent. apply filter_absent. change SPACE with space. rewrite (proj2 (mem_In space el) H). reflexivity.
  - split.
    + intros H. destruct (mem N.eqb space el) eqn:M; [apply mem_In, M|exfalso]. specialize (H _ (valid1 space scalar_space)). cbn [filter] in H. rewrite M in H. discriminate.
    + intros H s V. apply trim_absent. apply filter_absent. change SPACE with space. rewrite (proj2 (mem_In space el) H). reflexivity.
  (* reduction *)
  - split.
    + intros H c S. specialize (H [c] (valid1 c S)). rewrite red_one in H. cbn [map] in H. congruence.
    + intros H s V. apply map_same. intros c I. apply H. apply (valid_In s V). exact (collapsed_In _ _ _ (red_rec_collapsed k s) c I).
  - split.
    + intros H. destruct el' as [|x el']; [reflexivity|exfalso]. inversion Pb as [|? ? Sx _]; subst. specialize (H [x] (valid1 x Sx)). rewrite red_one in H.
      apply filter_kept with (c := x) in H; [|left; reflexivity]. apply not_mem in H. apply H. left. reflexivity.
    + intros -> s V. apply filter_all. reflexivity.
  - split.
    + intros H. destruct (N.eq_dec k' k) as [E|D]; [exact E|exfalso]. assert (V : valid_str [k'; k']) by valid. specialize (H _ V). cbn [red_rec] in H.
      rewrite (proj2 (N.eqb_neq k k')) in H by congruence. rewrite red_pair in H. discriminate.
    + intros -> s V. apply red_idem.
  - split; [|intros []]. intros H. specialize (H _ (valid1 space scalar_space)). rewrite red_one in H. discriminate.
  - split; [|intros []]. intros H. specialize (H _ (valid1 space scalar_space)). rewrite red_one in H. discriminate.
  (* dotted spaces *)
  - split.
    + intros H c S. assert (V : valid_str [97%N; c; 97%N]) by valid. specialize (H _ V). rewrite dot_between in H. cbn [map] in H. congruence.
    + intros H s V. apply map_same. intros c I. apply H. apply (valid_In s V). refine (undotted_In None _ _ _ c I). apply dot_modify_spec. apply dot_modify_rec.
  - split.
    + intros H. destruct el' as [|x el']; [reflexivity|exfalso]. inversion Pb as [|? ? Sx _]; subst. assert (V : valid_str [97%N; x; 97%N]) by valid. specialize (H _ V). rewrite dot_between in H.
      apply filter_kept with (c := x) in H; [|right; left; reflexivity]. apply not_mem in H. apply H. left. reflexivity.
    + intros -> s V. apply filter_all. reflexivity.
  - split.
    + intros H. destruct (N.eq_dec k' space) as [E|D]; [exact E|exfalso]. assert (V : valid_str [k'; k']) by valid. specialize (H _ V). rewrite dot_absent in H by (intros [E|[E|[]]]; exact (D E)). rewrite red_pair in H. discriminate.
    + intros -> s V. apply red_of_dot.
  - split; [trivial|]. intros _ s V. apply dot_idem.
  - split; [trivial|]. intros _ s V. apply trim_of_dot.
  (* trimming *)
  - split.
    + intros H c S. assert (V : valid_str [97%N; c; 97%N]) by valid. specialize (H _ V). rewrite trim_mid in H. cbn [map] in H. congruence.
    + intros H s V. apply map_same. intros c I. apply H. apply (valid_In s V). destruct (trim_modify_trimmed s) as (_ & _ & x & y & ->). apply in_or_app. right. apply in_or_app. left. exact I.
  - split.
    + intros H. destruct el' as [|x el']; [reflexivity|exfalso]. inversion Pb as [|? ? Sx _]; subst. assert (V : valid_str [97%N; x; 97%N]) by valid. specialize (H _ V). rewrite trim_mid in H.
      apply filter_kept with (c := x) in H; [|right; left; reflexivity]. apply not_mem in H. apply H. left. reflexivity.
    + intros -> s V. apply filter_all. reflexivity.
  - split; [|intros []]. intros H. assert (V : valid_str [97%N; k'; k'; 97%N]) by valid. specialize (H _ V). rewrite trim_mid2 in H. cbn [red_rec] in H. rewrite N.eqb_refl in H.
    destruct (N.eqb_spec k' 97%N) as [->|D]; discriminate H.
  - split; [|intros []]. intros H. assert (V : valid_str [97%N; space; space; 97%N]) by valid. specialize (H _ V). rewrite trim_mid2 in H. discriminate H.
  - split; [trivial|]. intros _ s V. apply trim_idem.
Qed.
Print Assumptions C103_behind.

Theorem C103_before : forall a b, plain a -> plain b -> (first_idle a b <-> before makes a b).
Proof.
  intros a b Pa Pb. rewrite (first_iff _ _ _ _ (plain_does a Pa) (plain_does b Pb)).
  assert (One : forall cc, keeps_all makes (MConv cc) <-> forall c, is_scalar c = true -> conv1 cc c = c).
  { intros cc. split; intros H c S; [symmetry; apply makes_conv, H, S|apply makes_conv; symmetry; apply H, S]. }
  assert (Id : forall cc s, (forall c, is_scalar c = true -> conv1 cc c = c) -> valid_str s -> map (conv1 cc) s = s).
  { intros cc s H V. apply map_same. intros c I. apply H, (valid_In s V c I). }
  assert (El : forall s, filter (fun c => negb (mem N.eqb c [])) s = s) by (intros s; apply filter_all; reflexivity).
  destruct b as [cc'|el'|k'| |?| |?]; try contradiction; destruct a as [cc|el|k| |?| |?]; try contradiction; cbn [before does_what]; rewrite ?One; clear One; cbn [plain] in Pa, Pb.
  (* before a conversion *)
  - split.
    + intros H c d e S M M'. apply makes_conv in M. apply makes_conv in M'. subst d e. apply makes_conv. specialize (H [c] (valid1 c S)). cbn [map] in H. congruence.
    + intros H s V. rewrite map_map. apply map_ext_in. intros c I. symmetry. apply makes_conv. apply (H c); [exact (valid_In s V c I)|apply makes_conv; reflexivity|apply makes_conv; reflexivity].
  - split.
    + intros H. destruct el as [|x el]; [reflexivity|exfalso]. inversion Pa as [|? ? Sx _]; subst. specialize (H [x] (valid1 x Sx)). cbn [filter] in H.
      rewrite (proj2 (mem_In x (x :: el)) (or_introl eq_refl)) in H. discriminate.
    + intros -> s V. rewrite El. reflexivity.
  - split; [|intros []]. intros H. assert (V : valid_str [k; k]) by valid. specialize (H _ V). rewrite red_pair in H. discriminate.
  - split; [|intros []]. intros H. specialize (H _ (valid1 space scalar_space)). discriminate.
  - split; [|intros []]. intros H. specialize (H _ (valid1 space scalar_space)). discriminate.
  (* before an elimination *)
  - split.
    + intros H c d S M. apply makes_conv in M. subst d. specialize (H [c] (valid1 c S)). cbn [map filter] in H.
      destruct (mem N.eqb (conv1 cc c) el') eqn:M1, (mem N.eqb c el') eqn:M2; cbn [negb] in H; try discriminate.
      * right. split; apply mem_In; assumption.
      * left. congruence.
    + intros H s V. induction s as [|c s IH]; [reflexivity|]. inversion V as [|? ? Sc Vs]; subst. cbn [map filter]. rewrite (IH Vs).
      destruct (H c (conv1 cc c) Sc) as [E|[A B]]; [apply makes_conv; reflexivity|rewrite <- E; reflexivity|]. rewrite (proj2 (mem_In _ _) A), (proj2 (mem_In _ _) B). reflexivity.
  - split.
    + intros H x I. destruct (mem N.eqb x el') eqn:M; [apply mem_In, M|exfalso]. specialize (H [x] (valid1 x (valid_In _ Pa x I))). cbn [filter] in H.
      rewrite (proj2 (mem_In x el) I), M in H. discriminate.
    + intros H s V. rewrite filter_comm. apply filter_same. intros c I. apply filter_In in I as [_ N]. apply not_mem. intros J. apply (proj1 (not_mem c el') N), H, J.
  - split.
    + intros H. destruct (mem N.eqb k el') eqn:M; [apply mem_In, M|exfalso]. assert (V : valid_str [k; k]) by valid. specialize (H _ V). rewrite red_pair in H. cbn [filter] in H. rewrite M in H. discriminate.
    + intros H s V. apply filter_red. rewrite (proj2 (mem_In k el') H). reflexivity.
  - split.
    + intros H. destruct (mem N.eqb space el') eqn:M; [apply mem_In, M|exfalso]. specialize (H _ (valid1 space scalar_space)). cbn [filter] in H. rewrite M in H. discriminate.
    + intros H s V. apply filter_dot. change SPACE with space. rewrite (proj2 (mem_In space el') H). reflexivity.
  - split.
    + intros H. destruct (mem N.eqb space el') eqn:M; [apply mem_In, M|exfalso]. specialize (H _ (valid1 space scalar_space)). cbn [filter] in H. rewrite M in H. discriminate.
    + intros H s V. apply filter_trim. change SPACE with space. rewrite (proj2 (mem_In space el') H). reflexivity.
  (* before a reduction *)
  - split; [|intros H s V; rewrite (Id cc s H V); reflexivity]. intros H c S. specialize (H [c] (valid1 c S)). cbn [map] in H. rewrite !red_one in H. congruence.
  - split.
    + intros H. destruct el as [|x el]; [reflexivity|exfalso]. inversion Pa as [|? ? Sx _]; subst. specialize (H [x] (valid1 x Sx)). cbn [filter] in H.
      rewrite (proj2 (mem_In x (x :: el)) (or_introl eq_refl)), red_one in H. discriminate.
    + intros -> s V. rewrite El. reflexivity.
  - split.
    + intros H. destruct (N.eq_dec k k') as [E|D]; [exact E|exfalso]. assert (V : valid_str [k; k]) by valid. specialize (H _ V). rewrite red_pair in H. rewrite !red_absent in H; [discriminate|intros [E|[E|[]]]; exact (D E)|intros [E|[]]; exact (D E)].
    + intros -> s V. apply red_idem.
  - split; [|intros []]. intros H. specialize (H _ (valid1 space scalar_space)). rewrite red_one in H. discriminate.
  - split; [|intros []]. intros H. specialize (H _ (valid1 space scalar_space)). rewrite red_one in H. discriminate.
  (* before the elimination of dotted spaces *)
  - split; [|intros H s V; rewrite (Id cc s H V); reflexivity]. intros H c S. specialize (H [c] (valid1 c S)). cbn [map] in H.
    destruct (N.eq_dec c SPACE) as [E0|D].
    + subst c. destruct (N.eq_dec (conv1 cc SPACE) SPACE) as [E|D']; [exact E|]. rewrite dot_one in H by exact D'. discriminate.
    + rewrite (dot_one c D) in H. destruct (N.eq_dec (conv1 cc c) SPACE) as [E|D']; [rewrite E in H; discriminate|]. rewrite (dot_one _ D') in H. congruence.
  - split.
    + intros H. destruct el as [|x el]; [reflexivity|exfalso].
      assert (F : forall z, In z (x :: el) -> z = SPACE).
      { intros z I. destruct (N.eq_dec z SPACE) as [E|D]; [exact E|exfalso]. specialize (H [z] (valid1 z (valid_In _ Pa z I))). cbn [filter] in H. rewrite (proj2 (mem_In z _) I), (dot_one z D) in H. discriminate. }
      assert (V : valid_str [97%N; space; 97%N]) by valid. specialize (H _ V). rewrite dot_between in H. cbn [filter] in H.
      rewrite (proj2 (mem_not 97%N (x :: el))) in H by (intros I; discriminate (F _ I)). assert (E : x = space) by (apply F; left; reflexivity). subst x.
      rewrite (proj2 (mem_In space (space :: el)) (or_introl eq_refl)) in H. discriminate.
    + intros -> s V. rewrite El. reflexivity.
  - split.
    + intros H. destruct (N.eq_dec k space) as [E|D]; [exact E|exfalso]. assert (V : valid_str [k; k]) by valid. specialize (H _ V). rewrite red_pair in H.
      rewrite !dot_absent in H; [discriminate|intros [E|[E|[]]]; exact (D E)|intros [E|[]]; exact (D E)].
    + intros -> s V. apply dot_of_red.
  - split; [trivial|]. intros _ s V. apply dot_idem.
  - split; [trivial|]. intros _ s V. apply dot_of_trim.
  (* before trimming *)
  - split; [|intros H s V; rewrite (Id cc s H V); reflexivity]. intros H c S. specialize (H [c] (valid1 c S)). cbn [map] in H.
    destruct (N.eq_dec c SPACE) as [E0|D].
    + subst c. destruct (N.eq_dec (conv1 cc SPACE) SPACE) as [E|D']; [exact E|]. rewrite trim_one in H by exact D'. discriminate.
    + rewrite (trim_one c D) in H. destruct (N.eq_dec (conv1 cc c) SPACE) as [E|D']; [rewrite E in H; discriminate|]. rewrite (trim_one _ D') in H. congruence.
  - split.
    + intros H. destruct el as [|x el]; [reflexivity|exfalso].
      assert (F : forall z, In z (x :: el) -> z = SPACE).
      { intros z I. destruct (N.eq_dec z SPACE) as [E|D]; [exact E|exfalso]. specialize (H [z] (valid1 z (valid_In _ Pa z I))). cbn [filter] in H. rewrite (proj2 (mem_In z _) I), (trim_one z D) in H. discriminate. }
      assert (V : valid_str [97%N; space; 97%N]) by valid. specialize (H _ V). rewrite trim_mid in H. cbn [filter] in H.
      rewrite (proj2 (mem_not 97%N (x :: el))) in H by (intros I; discriminate (F _ I)). assert (E : x = space) by (apply F; left; reflexivity). subst x.
      rewrite (proj2 (mem_In space (space :: el)) (or_introl eq_refl)) in H. discriminate.
    + intros -> s V. rewrite El. reflexivity.
  - split; [|intros []]. intros H. destruct (N.eq_dec k SPACE) as [->|D].
    + assert (V : valid_str [97%N; space; space; 97%N]) by valid. specialize (H _ V). discriminate H.
    + assert (V : valid_str [k; k]) by valid. specialize (H _ V). rewrite red_pair in H. rewrite !trim_absent in H; [discriminate|intros [E|[E|[]]]; exact (D E)|intros [E|[]]; exact (D E)].
  - split; [|intros []]. intros H. assert (V : valid_str [97%N; space; space; 97%N]) by valid. specialize (H _ V). discriminate H.
  - split; [trivial|]. intros _ s V. apply trim_idem.
Qed.
Print Assumptions C103_before.

(** The two rows of the tables at work. *)
Example C103_case_behind : second_idle MDot (MRed space) /\ ~ second_idle (MRed space) MDot /\ second_idle (MElim [97; space]%N) (MElim [space]) /\
  ~ second_idle (MElim [space]) (MElim [97; space]%N).
Proof.
  assert (V : forall l, forallb is_scalar l = true -> valid_str l) by (intros l H; apply Forall_forall; intros c I; rewrite forallb_forall in H; apply H, I).
  rewrite !C103_behind by (exact I || reflexivity || (apply V; reflexivity)). cbn [behind]. repeat split.
  - intros H. exact H.
  - intros c [<-|[]]. cbn. auto.
  - intros H. destruct (H 97%N) as [E|[]]; [left; reflexivity|discriminate E].
Qed.
Example C103_case_before : first_idle MTrim MDot /\ ~ first_idle MDot MTrim /\ first_idle (MConv [(97, 98)]%N) (MConv [(97, 98)]%N) /\
  first_idle (MConv [(97, 98)]%N) (MConv [(98, 97)]%N) /\ ~ first_idle (MConv [(98, 97)]%N) (MElim [98]%N).
Proof.
  assert (V : valid_str [98%N]) by (repeat constructor).
  rewrite !C103_before by (exact I || exact V). cbn [before]. repeat split.
  - intros H. exact H.
  - intros c d e _ A B. apply makes_conv in A, B. subst d e. apply makes_conv. unfold conv1. cbn. destruct (N.eqb_spec c 97) as [->|D]; [reflexivity|].
    apply N.eqb_neq in D. rewrite D. reflexivity.
  - intros c d e _ A B. apply makes_conv in A, B. subst d e. apply makes_conv. unfold conv1. cbn. destruct (N.eqb_spec c 97) as [->|D]; [reflexivity|].
    reflexivity.
  - intros H. destruct (H 98%N 97%N) as [E|[_ [E|[]]]]; [reflexivity|apply makes_conv; reflexivity|discriminate E|discriminate E].
Qed.
