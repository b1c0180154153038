(** Lemmas for C50. *)
From Verif Require Import Base BaseFacts StrOps Corr Table Converter Eliminator Reducer Ligature Neologdn ModifierKind ChanomaModel
  Spec TableFacts ConverterProps SimpleProps PropsLig CharsetFacts NeoFacts NeoProps PropsConverter PropsNeo PropsPipeline FileSpec ParseSpec YamlProps.

(** ** Splitting *)
Lemma split_nonnil sep s : split sep s <> [].
Proof. induction s as [|c s IH]; cbn [split]; [discriminate|]. destruct (N.eqb c sep); [discriminate|]. destruct (split sep s); discriminate. Qed.
Lemma split_one sep p : ~ In sep p -> split sep p = [p].
Proof.
  induction p as [|c p IH]; intros H; cbn [split]; [reflexivity|]. destruct (N.eqb_spec c sep) as [->|_]; [destruct H; left; reflexivity|].
  rewrite IH; [reflexivity|]. intros G. apply H. right; exact G.
Qed.
Lemma split_more sep p s : ~ In sep p -> split sep (p ++ sep :: s) = p :: split sep s.
Proof.
  induction p as [|c p IH]; intros H; cbn [app split].
  - rewrite N.eqb_refl. reflexivity.
  - destruct (N.eqb_spec c sep) as [->|_]; [destruct H; left; reflexivity|]. rewrite IH; [reflexivity|]. intros G. apply H. right; exact G.
Qed.
Lemma split_pieces sep s : pieces sep s (split sep s).
Proof.
  induction s as [|c s IH]; cbn [split]; [constructor; intros []|]. destruct (N.eqb_spec c sep) as [->|Hc].
  - apply (pieces_more sep [] s); [intros []|exact IH].
  - remember (split sep s) as l eqn:El. destruct IH as [p Hp|p s' ps Hp Hs].
    + constructor. intros [G|G]; [congruence|contradiction].
    + apply (pieces_more sep (c :: p) s' ps); [|exact Hs]. intros [G|G]; [congruence|contradiction].
Qed.
Lemma pieces_iff sep s ps : pieces sep s ps <-> ps = split sep s.
Proof.
  split; [|intros ->; apply split_pieces]. induction 1 as [p Hp|p s ps Hp _ ->].
  - symmetry. apply split_one, Hp.
  - symmetry. apply split_more, Hp.
Qed.

(** ** White space *)
Lemma blank_iff c : is_whitespace c = true <-> blank c.
Proof.
  unfold is_whitespace, blank, white_spaces. cbn [In]. rewrite !orb_true_iff, !andb_true_iff, !N.leb_le, !N.eqb_eq. lia.
Qed.
Lemma blank_false c : is_whitespace c = false <-> ~ blank c.
Proof. rewrite <- blank_iff. destruct (is_whitespace c); split; congruence. Qed.
Lemma trim_start_ws_spec s : exists a, Forall blank a /\ s = a ++ trim_start_ws s /\
  (trim_start_ws s = [] \/ exists c r, trim_start_ws s = c :: r /\ ~ blank c).
Proof.
  induction s as [|c s (a & F & E & H)]; cbn [trim_start_ws].
  - exists []. repeat split; [constructor|left; reflexivity].
  - destruct (is_whitespace c) eqn:W.
    + apply blank_iff in W. exists (c :: a). split; [constructor; assumption|]. split; [cbn; congruence|exact H].
    + apply blank_false in W. exists []. split; [constructor|]. split; [reflexivity|]. right. exists c, s. auto.
Qed.
Lemma trim_start_ws_blank a s : Forall blank a -> trim_start_ws (a ++ s) = trim_start_ws s.
Proof. induction 1 as [|c a H _ IH]; [reflexivity|]. cbn [app trim_start_ws]. apply blank_iff in H. rewrite H. exact IH. Qed.
Lemma trim_start_ws_char c r : ~ blank c -> trim_start_ws (c :: r) = c :: r.
Proof. intros H. cbn [trim_start_ws]. apply blank_false in H. rewrite H. reflexivity. Qed.
Lemma trim_start_ws_last l c : ~ blank c -> exists l', trim_start_ws (l ++ [c]) = l' ++ [c].
Proof.
  intros H. induction l as [|x l IH]; cbn [app].
  - exists []. rewrite trim_start_ws_char by exact H. reflexivity.
  - cbn [trim_start_ws]. destruct (is_whitespace x); [exact IH|]. exists (x :: l). reflexivity.
Qed.
Definition fchars (p : str) : list char := match first_char (trim_ws p) with Some x => [x] | None => [] end.
Lemma fchars_char a c r : Forall blank a -> ~ blank c -> fchars (a ++ c :: r) = [c].
Proof.
  intros F H. unfold fchars, trim_ws. rewrite (trim_start_ws_blank a _ F), (trim_start_ws_char c r H). cbn [rev].
  destruct (trim_start_ws_last (rev r) c H) as (l' & ->). rewrite rev_app_distr. reflexivity.
Qed.
Lemma fchars_one c : ~ blank c -> fchars [c] = [c].
Proof. exact (fchars_char [] c [] (Forall_nil _)). Qed.
Lemma fchars_blank p : Forall blank p -> fchars p = [].
Proof. intros F. unfold fchars, trim_ws. rewrite <- (app_nil_r p), (trim_start_ws_blank p [] F). reflexivity. Qed.
Lemma fchars_cases p : Forall blank p \/ exists a c r, p = a ++ c :: r /\ Forall blank a /\ ~ blank c.
Proof.
  destruct (trim_start_ws_spec p) as (a & F & E & [H|(c & r & H & Hc)]).
  - left. rewrite E, H, app_nil_r. exact F.
  - right. exists a, c, r. rewrite <- H. auto.
Qed.
Lemma fchars_app_blank p b : Forall blank b -> fchars (p ++ b) = fchars p.
Proof.
  intros F. destruct (fchars_cases p) as [Hp|(a & c & r & -> & Fa & Hc)].
  - rewrite !fchars_blank; [reflexivity|exact Hp|apply Forall_app; auto].
  - rewrite <- app_assoc. cbn [app]. rewrite !fchars_char by assumption. reflexivity.
Qed.
Lemma fchars_blank_app a p : Forall blank a -> fchars (a ++ p) = fchars p.
Proof. intros F. unfold fchars, trim_ws. rewrite (trim_start_ws_blank a p F). reflexivity. Qed.
Lemma firsts_iff ps cs : firsts ps cs <-> cs = flat_map fchars ps.
Proof.
  split.
  - induction 1 as [|p ps cs F _ ->|a c r ps cs F H _ ->]; cbn [flat_map]; [reflexivity|rewrite fchars_blank by exact F; reflexivity|].
    rewrite fchars_char by assumption. reflexivity.
  - intros ->. induction ps as [|p ps IH]; cbn [flat_map]; [constructor|].
    destruct (fchars_cases p) as [Hp|(a & c & r & -> & Fa & Hc)].
    + rewrite fchars_blank by exact Hp. apply firsts_blank; assumption.
    + rewrite fchars_char by assumption. apply firsts_char; assumption.
Qed.
Lemma trim_ws_split st : exists a b, Forall blank a /\ Forall blank b /\ st = a ++ trim_ws st ++ b.
Proof.
  destruct (trim_start_ws_spec st) as (a & Fa & Ea & _). destruct (trim_start_ws_spec (rev (trim_start_ws st))) as (b & Fb & Eb & _).
  exists a, (rev b). split; [exact Fa|]. split; [apply Forall_rev, Fb|]. rewrite Ea at 1. f_equal.
  rewrite <- (rev_involutive (trim_start_ws st)), Eb, rev_app_distr. reflexivity.
Qed.
Lemma blank_not_colon p : Forall blank p -> ~ In COLON p.
Proof. intros F H. rewrite Forall_forall in F. specialize (F _ H). apply blank_iff in F. discriminate. Qed.
Lemma split_prefix sep a s : ~ In sep a -> exists p ps, split sep s = p :: ps /\ split sep (a ++ s) = (a ++ p) :: ps.
Proof.
  intros H. induction a as [|x a IH].
  - destruct (split sep s) as [|p ps] eqn:E; [destruct (split_nonnil sep s E)|]. exists p, ps. auto.
  - destruct IH as (p & ps & E1 & E2); [intros G; apply H; right; exact G|]. exists p, ps. split; [exact E1|].
    cbn [app split]. destruct (N.eqb_spec x sep) as [->|_]; [destruct H; left; reflexivity|]. rewrite E2. reflexivity.
Qed.
Lemma split_suffix sep s b : ~ In sep b -> exists ps p, split sep s = ps ++ [p] /\ split sep (s ++ b) = ps ++ [p ++ b].
Proof.
  intros H. induction s as [|x s (ps & p & E1 & E2)]; cbn [app split].
  - exists [], []. split; [reflexivity|]. apply split_one, H.
  - destruct (N.eqb x sep).
    + exists ([] :: ps), p. rewrite E1, E2. auto.
    + rewrite E1, E2. destruct ps as [|q ps]; cbn [app].
      * exists [], (x :: p). auto.
      * exists ((x :: q) :: ps), p. auto.
Qed.
Lemma colon_trim st : flat_map fchars (split COLON (trim_ws st)) = flat_map fchars (split COLON st).
Proof.
  destruct (trim_ws_split st) as (a & b & Fa & Fb & E). rewrite E at 2.
  destruct (split_prefix COLON a (trim_ws st ++ b) (blank_not_colon a Fa)) as (p & ps & E1 & E2).
  destruct (split_suffix COLON (trim_ws st) b (blank_not_colon b Fb)) as (qs & q & E3 & E4).
  rewrite E2. cbn [flat_map]. rewrite (fchars_blank_app a p Fa). change (fchars p ++ flat_map fchars ps) with (flat_map fchars (p :: ps)).
  rewrite <- E1, E4, E3, !flat_map_app. cbn [flat_map]. rewrite (fchars_app_blank q b Fb). reflexivity.
Qed.
Definition fpair (st : str) : list (char * char) := match conv_pair_of st with Some p => [p] | None => [] end.
Lemma fpair_eq st : fpair st = match flat_map fchars (split COLON st) with [a; b] => [(a, b)] | _ => [] end.
Proof.
  unfold fpair, conv_pair_of. change (fun c => match first_char (trim_ws c) with Some x => [x] | None => [] end) with fchars.
  rewrite colon_trim. destruct (flat_map fchars (split COLON st)) as [|x [|y [|z l]]]; reflexivity.
Qed.
Lemma colon_pairs_iff ps kvs : colon_pairs ps kvs <-> kvs = flat_map fpair ps.
Proof.
  split.
  - induction 1 as [|p subs x y ps kvs Hs Hf _ ->|p subs cs ps kvs Hs Hf Hl _ ->]; cbn [flat_map]; [reflexivity|..];
      rewrite fpair_eq; apply pieces_iff in Hs; subst subs; apply firsts_iff in Hf.
    + change (split COLON p) with (split colon p). rewrite <- Hf. reflexivity.
    + change (split COLON p) with (split colon p). rewrite <- Hf. destruct cs as [|x [|y [|z l]]]; try reflexivity. destruct Hl; reflexivity.
  - intros ->. induction ps as [|p ps IH]; cbn [flat_map]; [constructor|]. rewrite fpair_eq.
    assert (Hp : pieces colon p (split COLON p)) by apply split_pieces.
    assert (Hf : firsts (split COLON p) (flat_map fchars (split COLON p))) by (apply firsts_iff; reflexivity).
    destruct (flat_map fchars (split COLON p)) as [|x [|y [|z l]]]; cbn [app].
    + eapply cp_other; [exact Hp|exact Hf|discriminate|exact IH].
    + eapply cp_other; [exact Hp|exact Hf|discriminate|exact IH].
    + eapply cp_pair; [exact Hp|exact Hf|exact IH].
    + eapply cp_other; [exact Hp|exact Hf|discriminate|exact IH].
Qed.

(** ** Effects *)
Lemma hm_get_rev_last_char (k v : char) l : hm_get N.eqb k (rev l) = Some v <-> last_pair l k v.
Proof.
  unfold last_pair. induction l as [|[a b] l IH] using rev_ind.
  - cbn. split; [discriminate|]. intros (l1 & l2 & E & _). destruct l1; discriminate.
  - rewrite rev_app_distr. cbn [rev app hm_get]. destruct (N.eqb_spec k a) as [->|Hn].
    + split.
      * intros E. injection E as ->. exists l, []. split; [reflexivity|]. intros [].
      * intros (l1 & l2 & E & N). destruct l2 as [|x l2 _] using rev_ind.
        { apply app_inj_tail in E as [_ E]. injection E as ->. reflexivity. }
        { exfalso. change (l1 ++ (a, v) :: l2 ++ [x]) with (l1 ++ ((a, v) :: l2) ++ [x]) in E. rewrite app_assoc in E.
          apply app_inj_tail in E as [_ <-]. apply N. rewrite map_app. apply in_or_app. right. left. reflexivity. }
    + rewrite IH. split.
      * intros (l1 & l2 & -> & N). exists l1, (l2 ++ [(a, b)]). rewrite <- app_assoc. split; [reflexivity|].
        rewrite map_app. intros H. apply in_app_or in H as [H|[H|[]]]; [contradiction|cbn in H; congruence].
      * intros (l1 & l2 & E & N). destruct l2 as [|x l2 _] using rev_ind.
        { apply app_inj_tail in E as [_ E]. congruence. }
        { change (l1 ++ (k, v) :: l2 ++ [x]) with (l1 ++ ((k, v) :: l2) ++ [x]) in E. rewrite app_assoc in E.
          apply app_inj_tail in E as [-> _]. exists l1, l2. split; [reflexivity|]. intros H. apply N. rewrite map_app.
          apply in_or_app. left; exact H. }
Qed.
Lemma realises_pairs kvs : realises (MConv (hm_collect N.eqb kvs)) (pointwise (last_pair kvs)).
Proof.
  apply realises_conv. intros c t. unfold conv_get. rewrite (hm_get_collect N.eqb N.eqb_eq). apply hm_get_rev_last_char.
Qed.
Lemma realises_elim_chars cs : realises (MElim (elim_from_chars cs)) (removed (fun c => In c cs)).
Proof.
  split; [discriminate|]. intros s out.
  rewrite (removed_filter _ (fun c => if in_dec N.eq_dec c cs then false else true)).
  - unfold result. split.
    + intros (o & H). rewrite C10_exact_lemma in H. apply Ok_inj in H; symmetry; exact H.
    + intros ->. exists no_order. apply C10_exact_lemma.
  - intros c. destruct (in_dec N.eq_dec c cs) as [Hi|Hn]; [split; auto|]. split; [discriminate|contradiction].
Qed.
Lemma realises_lig_one a b : realises (MLig [(a, b)]) (applied_in_turn [(a, b)]).
Proof.
  split; [discriminate|]. intros s out. unfold result. rewrite C22_exact_lemma. split.
  - intros (m & P & A). apply Permutation_length_1_inv in P. subst m. exact A.
  - intros A. exists [(a, b)]. auto.
Qed.

(** ** Parsing *)
Lemma starts_with_iff p s : starts_with p s = true <-> exists r, s = p ++ r.
Proof.
  revert s; induction p as [|x p IH]; intros s; cbn [starts_with].
  - split; [intros _; exists s; reflexivity|reflexivity].
  - destruct s as [|y s]; [split; [discriminate|intros (r & E); discriminate]|]. rewrite andb_true_iff, N.eqb_eq, IH. split.
    + intros [-> (r & ->)]. exists r. reflexivity.
    + intros (r & E). injection E as -> ->. eauto.
Qed.
Lemma starts_with_app p r : starts_with p (p ++ r) = true.
Proof. apply starts_with_iff. eauto. Qed.
Lemma starts_with_false p s : starts_with p s = false -> forall r, s <> p ++ r.
Proof. intros E r ->. rewrite starts_with_app in E. discriminate. Qed.
Lemma argument_close p a : argument p (p ++ a ++ [rparen]) = Ok a.
Proof.
  unfold argument, strip_prefix. rewrite starts_with_app. cbn [unwrap bind]. rewrite skipn_app, skipn_all, Nat.sub_diag. cbn [app skipn].
  unfold strip_suffix_char. rewrite rev_app_distr. cbn [rev app]. change (N.eqb rparen RPAREN) with true. cbn iota. rewrite rev_involutive. reflexivity.
Qed.
Lemma argument_open p r : (forall a, r <> a ++ [rparen]) -> argument p (p ++ r) = Panic.
Proof.
  intros H. unfold argument, strip_prefix. rewrite starts_with_app. cbn [unwrap bind]. rewrite skipn_app, skipn_all, Nat.sub_diag. cbn [app skipn].
  unfold strip_suffix_char. destruct (rev r) as [|x t] eqn:E; [reflexivity|]. destruct (N.eqb_spec x RPAREN) as [->|_]; [|reflexivity].
  exfalso. apply (H (rev t)). apply (f_equal (@rev char)) in E. rewrite rev_involutive in E. exact E.
Qed.
Lemma close_cases (r : str) : (exists a, r = a ++ [rparen]) \/ forall a, r <> a ++ [rparen].
Proof.
  destruct r as [|x r _] using rev_ind.
  - right. intros a E. destruct a; discriminate.
  - destruct (N.eq_dec x rparen) as [->|H]; [left; eauto|]. right. intros a E. apply app_inj_tail in E as [_ E]. contradiction.
Qed.
(** The parser by shape of the description. *)
Lemma parse_reducer o r : modifier_from_str o (P_reducer ++ r) = (a <- argument P_reducer (P_reducer ++ r) ;; c <- red_from_str a ;; Ok (MRed c)).
Proof. reflexivity. Qed.
Lemma parse_ligature o r : modifier_from_str o (P_ligature ++ r) = (a <- argument P_ligature (P_ligature ++ r) ;; c <- lig_from_str a ;; Ok (MLig c)).
Proof. reflexivity. Qed.
Lemma parse_eliminator o r : modifier_from_str o (P_eliminator ++ r) = (a <- argument P_eliminator (P_eliminator ++ r) ;; c <- elim_from_str a ;; Ok (MElim c)).
Proof. reflexivity. Qed.
Lemma parse_converter o r : modifier_from_str o (P_converter ++ r) = (a <- argument P_converter (P_converter ++ r) ;; c <- conv_from_str a ;; Ok (MConv c)).
Proof. reflexivity. Qed.
Lemma elim_from_str_eq a : elim_from_str a = match flat_map fchars (split COMMA a) with
  | [] => Err (ModifierKindParseError (lit "require value.")) | l => Ok (elim_from_chars l) end.
Proof.
  unfold elim_from_str. change (fun st => match first_char (trim_ws st) with Some x => [x] | None => [] end) with fchars.
  destruct (flat_map fchars (split COMMA a)); reflexivity.
Qed.
Lemma conv_from_str_eq a : conv_from_str a = match flat_map fpair (split COMMA a) with
  | [] => Err (ModifierKindParseError (lit "specified empty chars.")) | l => Ok (hm_collect N.eqb l) end.
Proof.
  unfold conv_from_str. change (fun st => match conv_pair_of st with Some p => [p] | None => [] end) with fpair.
  destruct (flat_map fpair (split COMMA a)); reflexivity.
Qed.

(** Exact outcome of the parser. *)
Lemma parse_outcome o s :
  (exists m e, modifier_from_str o s = Ok m /\ describes s e /\ realises m e) \/
  (exists er, modifier_from_str o s = Err er /\ description_error s er) \/
  (modifier_from_str o s = Panic /\ description_panics s).
Proof.
  destruct (starts_with P_reducer s) eqn:E1.
  { apply starts_with_iff in E1 as (r & ->). rewrite parse_reducer. destruct (close_cases r) as [(a & ->)|H].
    - rewrite argument_close. cbn [bind]. destruct a as [|c a]; cbn [red_from_str first_char hd_error unwrap bind].
      + right. right. split; [reflexivity|]. exact dp_reducer.
      + left. exists (MRed c), (collapsed c). split; [reflexivity|]. split; [exact (d_reducer c a)|apply realises_red].
    - rewrite argument_open by exact H. right. right. split; [reflexivity|].
      exact (dp_open (lit "consecutive_character_reducer") r (or_introl eq_refl) H). }
  destruct (starts_with P_ligature s) eqn:E2.
  { apply starts_with_iff in E2 as (r & ->). rewrite parse_ligature. destruct (close_cases r) as [(a & ->)|H].
    - rewrite argument_close. cbn [bind]. unfold lig_from_str. pose proof (split_pieces COMMA a) as Hp.
      destruct (split COMMA a) as [|x [|y [|z l]]] eqn:Es.
      + right. left. eexists. split; [reflexivity|]. exact (de_ligature a [] Hp ltac:(discriminate)).
      + right. left. eexists. split; [reflexivity|]. exact (de_ligature a [x] Hp ltac:(discriminate)).
      + left. exists (MLig [(x, y)]), (applied_in_turn [(x, y)]). split; [reflexivity|]. split; [|apply realises_lig_one].
        inversion Hp as [|? ? ? Hx Hy]; subst. inversion Hy as [? Hy'|? ? ? ? Hy']; subst; [|inversion Hy'].
        exact (d_ligature x y Hx Hy').
      + right. left. eexists. split; [reflexivity|]. exact (de_ligature a (x :: y :: z :: l) Hp ltac:(discriminate)).
    - rewrite argument_open by exact H. right. right. split; [reflexivity|].
      exact (dp_open (lit "ligature_translator") r (or_intror (or_introl eq_refl)) H). }
  destruct (starts_with P_eliminator s) eqn:E3.
  { apply starts_with_iff in E3 as (r & ->). rewrite parse_eliminator. destruct (close_cases r) as [(a & ->)|H].
    - rewrite argument_close. cbn [bind]. rewrite elim_from_str_eq. pose proof (split_pieces COMMA a) as Hp.
      assert (Hf : firsts (split COMMA a) (flat_map fchars (split COMMA a))) by (apply firsts_iff; reflexivity).
      destruct (flat_map fchars (split COMMA a)) as [|x l].
      + right. left. eexists. split; [reflexivity|]. exact (de_eliminator a _ Hp Hf).
      + left. eexists. eexists. split; [reflexivity|]. split; [exact (d_eliminator a _ _ Hp Hf ltac:(discriminate))|apply realises_elim_chars].
    - rewrite argument_open by exact H. right. right. split; [reflexivity|].
      exact (dp_open (lit "character_eliminator") r (or_intror (or_intror (or_introl eq_refl))) H). }
  destruct (starts_with P_converter s) eqn:E4.
  { apply starts_with_iff in E4 as (r & ->). rewrite parse_converter. destruct (close_cases r) as [(a & ->)|H].
    - rewrite argument_close. cbn [bind]. rewrite conv_from_str_eq. pose proof (split_pieces COMMA a) as Hp.
      assert (Hf : colon_pairs (split COMMA a) (flat_map fpair (split COMMA a))) by (apply colon_pairs_iff; reflexivity).
      destruct (flat_map fpair (split COMMA a)) as [|x l].
      + right. left. eexists. split; [reflexivity|]. exact (de_converter a _ Hp Hf).
      + left. eexists. eexists. split; [reflexivity|]. split; [exact (d_converter a _ _ Hp Hf ltac:(discriminate))|apply realises_pairs].
    - rewrite argument_open by exact H. right. right. split; [reflexivity|].
      exact (dp_open (lit "character_converter") r (or_intror (or_intror (or_intror (or_introl eq_refl)))) H). }
  unfold modifier_from_str. rewrite E1, E2, E3, E4.
  destruct (str_eqb_spec s S_neologdn) as [->|N1].
  { left. exists (MNeo NEO), neologdn_result. rewrite neologdn_new_eq. split; [reflexivity|]. split; [exact d_neologdn|apply realises_neo]. }
  destruct (str_eqb_spec s S_trim) as [->|N2].
  { left. exists MTrim, trimmed. split; [reflexivity|]. split; [exact d_trim|apply realises_trim]. }
  destruct (str_eqb_spec s S_dotted) as [->|N3].
  { left. exists MDot, (undotted None). split; [reflexivity|]. split; [exact d_dotted|apply realises_dot]. }
  right. left. eexists. split; [reflexivity|]. apply de_unknown.
  - intros [H|[H|[H|[]]]]; symmetry in H; contradiction.
  - intros name r [<-|[<-|[<-|[<-|[]]]]].
    + exact (starts_with_false _ _ E1 r).
    + exact (starts_with_false _ _ E2 r).
    + exact (starts_with_false _ _ E3 r).
    + exact (starts_with_false _ _ E4 r).
Qed.
(** The three descriptions of outcomes exclude each other. *)
Lemma describes_parses o s e : describes s e -> exists m, modifier_from_str o s = Ok m.
Proof.
  intros H. destruct H as [| | |c r|a b Ha Hb|arg ps cs Hp Hf Hn|arg ps kvs Hp Hf Hn].
  - exists (MNeo NEO). unfold modifier_from_str. change (str_eqb (lit "neologdn") S_neologdn) with true. cbn iota. rewrite neologdn_new_eq. reflexivity.
  - eexists. reflexivity.
  - eexists. reflexivity.
  - exists (MRed c). change (call_of (lit "consecutive_character_reducer") (c :: r)) with (P_reducer ++ (c :: r) ++ [rparen]).
    rewrite parse_reducer, argument_close. reflexivity.
  - eexists. change (call_of (lit "ligature_translator") (a ++ [comma] ++ b)) with (P_ligature ++ (a ++ [comma] ++ b) ++ [rparen]).
    rewrite parse_ligature, argument_close. cbn [bind]. unfold lig_from_str. cbn [app].
    assert (E : split COMMA (a ++ comma :: b) = [a; b]) by (change COMMA with comma; rewrite (split_more comma a b Ha), (split_one comma b Hb); reflexivity).
    rewrite E. reflexivity.
  - eexists. change (call_of (lit "character_eliminator") arg) with (P_eliminator ++ arg ++ [rparen]).
    rewrite parse_eliminator, argument_close. cbn [bind]. rewrite elim_from_str_eq. apply pieces_iff in Hp. subst ps. apply firsts_iff in Hf.
    change (split COMMA arg) with (split comma arg). rewrite <- Hf. destruct cs; [contradiction|reflexivity].
  - eexists. change (call_of (lit "character_converter") arg) with (P_converter ++ arg ++ [rparen]).
    rewrite parse_converter, argument_close. cbn [bind]. rewrite conv_from_str_eq. apply pieces_iff in Hp. subst ps. apply colon_pairs_iff in Hf.
    change (split COMMA arg) with (split comma arg). rewrite <- Hf. destruct kvs; [contradiction|reflexivity].
Qed.
Lemma error_parses o s er : description_error s er -> modifier_from_str o s = Err er.
Proof.
  intros H. destruct H as [s N1 N2|arg ps Hp Hl|arg ps Hp Hf|arg ps Hp Hf].
  - destruct (parse_outcome o s) as [(m & e & _ & D & _)|[(er & E & D)|(_ & D)]].
    + exfalso. destruct D as [| | |c r|a b Ha Hb|arg ps cs Hp Hf Hn|arg ps kvs Hp Hf Hn]; try (apply N1; cbn; auto; fail).
      * exact (N2 (lit "consecutive_character_reducer") _ ltac:(cbn; auto) eq_refl).
      * exact (N2 (lit "ligature_translator") _ ltac:(cbn; auto) eq_refl).
      * exact (N2 (lit "character_eliminator") _ ltac:(cbn; auto) eq_refl).
      * exact (N2 (lit "character_converter") _ ltac:(cbn; auto) eq_refl).
    + destruct D as [s|arg ps Hp Hl|arg ps Hp Hf|arg ps Hp Hf].
      * exact E.
      * destruct (N2 (lit "ligature_translator") (arg ++ [rparen]) ltac:(cbn; auto) eq_refl).
      * destruct (N2 (lit "character_eliminator") (arg ++ [rparen]) ltac:(cbn; auto) eq_refl).
      * destruct (N2 (lit "character_converter") (arg ++ [rparen]) ltac:(cbn; auto) eq_refl).
    + exfalso. destruct D as [name r Hn Hr|].
      * exact (N2 name r Hn eq_refl).
      * exact (N2 (lit "consecutive_character_reducer") _ ltac:(cbn; auto) eq_refl).
  - change (call_of (lit "ligature_translator") arg) with (P_ligature ++ arg ++ [rparen]).
    rewrite parse_ligature, argument_close. cbn [bind]. unfold lig_from_str. apply pieces_iff in Hp. subst ps.
    change (split comma arg) with (split COMMA arg) in Hl. destruct (split COMMA arg) as [|x [|y [|z l]]]; try reflexivity. destruct Hl; reflexivity.
  - change (call_of (lit "character_eliminator") arg) with (P_eliminator ++ arg ++ [rparen]).
    rewrite parse_eliminator, argument_close. cbn [bind]. rewrite elim_from_str_eq. apply pieces_iff in Hp. subst ps. apply firsts_iff in Hf.
    change (split COMMA arg) with (split comma arg). rewrite <- Hf. reflexivity.
  - change (call_of (lit "character_converter") arg) with (P_converter ++ arg ++ [rparen]).
    rewrite parse_converter, argument_close. cbn [bind]. rewrite conv_from_str_eq. apply pieces_iff in Hp. subst ps. apply colon_pairs_iff in Hf.
    change (split COMMA arg) with (split comma arg). rewrite <- Hf. reflexivity.
Qed.
Lemma panics_parses o s : description_panics s -> modifier_from_str o s = Panic.
Proof.
  intros H. destruct H as [name r Hn Hr|].
  - destruct Hn as [<-|[<-|[<-|[<-|[]]]]].
    + change (lit "consecutive_character_reducer" ++ [0x28%N] ++ r) with (P_reducer ++ r). rewrite parse_reducer, argument_open by exact Hr. reflexivity.
    + change (lit "ligature_translator" ++ [0x28%N] ++ r) with (P_ligature ++ r). rewrite parse_ligature, argument_open by exact Hr. reflexivity.
    + change (lit "character_eliminator" ++ [0x28%N] ++ r) with (P_eliminator ++ r). rewrite parse_eliminator, argument_open by exact Hr. reflexivity.
    + change (lit "character_converter" ++ [0x28%N] ++ r) with (P_converter ++ r). rewrite parse_converter, argument_open by exact Hr. reflexivity.
  - reflexivity.
Qed.

(** ** Writing descriptions *)
Fixpoint joined (sep : str) (l : list str) : str :=
  match l with
  | [] => []
  | [x] => x
  | x :: r => x ++ sep ++ joined sep r
  end.
Lemma split_joined sep l : l <> [] -> Forall (fun p => ~ In sep p) l -> split sep (joined [sep] l) = l.
Proof.
  intros H F. induction F as [|x l Hx F IH]; [contradiction|]. destruct l as [|y l].
  - cbn [joined]. apply split_one, Hx.
  - change (joined [sep] (x :: y :: l)) with (x ++ sep :: joined [sep] (y :: l)). rewrite split_more by exact Hx. f_equal. apply IH. discriminate.
Qed.
Lemma written_eliminator o cs : cs <> [] -> Forall (fun c => ~ blank c /\ c <> comma) cs ->
  modifier_from_str o (call_of (lit "character_eliminator") (joined [comma] (map (fun c => [c]) cs))) = Ok (MElim (elim_from_chars cs)).
Proof.
  intros Hn F. change (call_of (lit "character_eliminator") ?a) with (P_eliminator ++ a ++ [rparen]).
  rewrite parse_eliminator, argument_close. cbn [bind]. rewrite elim_from_str_eq.
  assert (E : split COMMA (joined [comma] (map (fun c => [c]) cs)) = map (fun c => [c]) cs).
  { apply split_joined; [destruct cs; [contradiction|discriminate]|]. apply Forall_map. eapply Forall_impl; [|exact F].
    intros c [_ Hc] [G|[]]; contradiction. }
  rewrite E.
  assert (E2 : flat_map fchars (map (fun c => [c]) cs) = cs).
  { clear E Hn. induction F as [|c cs [Hb _] _ IH]; cbn [map flat_map]; [reflexivity|]. rewrite IH.
    rewrite (fchars_one c Hb). reflexivity. }
  rewrite E2. destruct cs; [contradiction|reflexivity].
Qed.
Lemma written_converter o kvs : kvs <> [] ->
  Forall (fun kv => ~ blank (fst kv) /\ fst kv <> comma /\ fst kv <> colon /\ ~ blank (snd kv) /\ snd kv <> comma /\ snd kv <> colon) kvs ->
  modifier_from_str o (call_of (lit "character_converter") (joined [comma] (map (fun kv => [fst kv; colon; snd kv]) kvs))) =
  Ok (MConv (hm_collect N.eqb kvs)).
Proof.
  intros Hn F. change (call_of (lit "character_converter") ?a) with (P_converter ++ a ++ [rparen]).
  rewrite parse_converter, argument_close. cbn [bind]. rewrite conv_from_str_eq.
  assert (E : split COMMA (joined [comma] (map (fun kv : char * char => [fst kv; colon; snd kv]) kvs)) = map (fun kv => [fst kv; colon; snd kv]) kvs).
  { apply split_joined; [destruct kvs; [contradiction|discriminate]|]. apply Forall_map. eapply Forall_impl; [|exact F].
    intros c (_ & H1 & _ & _ & H2 & _) [G|[G|[G|[]]]]; [contradiction|discriminate|contradiction]. }
  rewrite E.
  assert (E2 : flat_map fpair (map (fun kv : char * char => [fst kv; colon; snd kv]) kvs) = kvs).
  { clear E Hn. induction F as [|[x y] kvs (H1 & H2 & H3 & H4 & H5 & H6) _ IH]; cbn [map flat_map fst snd] in *; [reflexivity|]. rewrite IH.
    rewrite fpair_eq.
    assert (Es : split COLON [x; colon; y] = [[x]; [y]]).
    { change [x; colon; y] with ([x] ++ colon :: [y]). change COLON with colon. rewrite (split_more colon [x] [y]) by (intros [G|[]]; contradiction).
      rewrite (split_one colon [y]) by (intros [G|[]]; contradiction). reflexivity. }
    rewrite Es. cbn [flat_map]. rewrite (fchars_one x H1), (fchars_one y H4). reflexivity. }
  rewrite E2. destruct kvs; [contradiction|reflexivity].
Qed.
