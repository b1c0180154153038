(** Lemmas about paths (C45-C49). *)
From Verif Require Import Base BaseFacts StrOps PathModel PathSpec.

Definition dir_like (a : path) : Prop := a = [] \/ exists d, a = d ++ [slash].
Lemma slash_in r : existsb (N.eqb SLASH) r = true <-> In slash r.
Proof.
  rewrite existsb_exists. split.
  - intros (x & H & E). apply N.eqb_eq in E. subst. exact H.
  - intros H. exists slash. split; [exact H|reflexivity].
Qed.
Lemma slash_notin r : existsb (N.eqb SLASH) r = false <-> ~ In slash r.
Proof. rewrite <- slash_in. destruct (existsb _ r); intuition congruence. Qed.
Lemma last_piece_spec p a n : last_piece p = (a, n) -> p = a ++ n /\ ~ In slash n /\ dir_like a.
Proof.
  revert a n; induction p as [|c p IH]; intros a n; cbn [last_piece].
  - intros E. injection E as <- <-. repeat split; [intros []|left; reflexivity].
  - destruct (last_piece p) as [a' n']. destruct (IH a' n' eq_refl) as (E & N & D).
    destruct (existsb (N.eqb SLASH) p) eqn:S.
    + intros H. injection H as <- <-. subst p. repeat split; [exact N|]. right.
      destruct D as [->|(d & ->)]; [apply slash_in in S; contradiction|]. exists (c :: d). reflexivity.
    + apply slash_notin in S. destruct (N.eqb_spec c SLASH) as [->|Hc]; intros H; injection H as <- <-.
      * repeat split; [exact S|]. right. exists []. reflexivity.
      * repeat split; [|left; reflexivity]. intros [H|H]; [contradiction (Hc H)|contradiction].
Qed.
Lemma piece_unique a n a' n' : a ++ n = a' ++ n' -> ~ In slash n -> ~ In slash n' -> dir_like a -> dir_like a' -> a = a' /\ n = n'.
Proof.
  revert a'; induction a as [|x a IH]; intros a' E N N' D D'.
  - destruct a' as [|y a']; [auto|]. exfalso. destruct D' as [D'|(d & D')]; [discriminate|]. rewrite D' in E.
    apply N. cbn in E. rewrite E. apply in_or_app. left. apply in_or_app. right. left; reflexivity.
  - destruct a' as [|y a'].
    + exfalso. destruct D as [D|(d & D)]; [discriminate|]. apply N'. cbn [app] in E. rewrite <- E.
      change (x :: a ++ n) with ((x :: a) ++ n). rewrite D. apply in_or_app. left. apply in_or_app. right. left; reflexivity.
    + cbn in E. injection E as -> E.
      assert (Hd : forall z b, dir_like (z :: b) -> b = [] /\ z = slash \/ dir_like b).
      { intros z b [H|(d & H)]; [discriminate|]. destruct d as [|w d]; cbn in H; injection H as -> ->; [left; auto|right; right; exists d; reflexivity]. }
      assert (Hda : dir_like a). { destruct (Hd _ _ D) as [[-> _]|H]; [left; reflexivity|exact H]. }
      assert (Hda' : dir_like a'). { destruct (Hd _ _ D') as [[-> _]|H]; [left; reflexivity|exact H]. }
      destruct (IH a' E N N' Hda Hda') as [-> ->]. auto.
Qed.
Lemma last_piece_unique a n : ~ In slash n -> dir_like a -> last_piece (a ++ n) = (a, n).
Proof.
  intros N D. destruct (last_piece (a ++ n)) as [a' n'] eqn:E. apply last_piece_spec in E as (E & N' & D').
  destruct (piece_unique _ _ _ _ E N N' D D') as [-> ->]. reflexivity.
Qed.
Lemma trail_last t : trail t -> t = [] \/ exists t', trail t' /\ (t = t' ++ [slash] \/ t = t' ++ [slash; dot]).
Proof.
  induction 1 as [|t Ht IH|t Ht IH]; [left; reflexivity|right..].
  - destruct IH as [->|(t' & H & [->| ->])].
    + exists []. split; [constructor|left; reflexivity].
    + exists (slash :: t'). split; [constructor; exact H|left; reflexivity].
    + exists (slash :: t'). split; [constructor; exact H|right; reflexivity].
  - destruct IH as [->|(t' & H & [->| ->])].
    + exists []. split; [constructor|right; reflexivity].
    + exists (slash :: dot :: t'). split; [constructor; exact H|left; reflexivity].
    + exists (slash :: dot :: t'). split; [constructor; exact H|right; reflexivity].
Qed.
Lemma trail_app t u : trail t -> trail u -> trail (t ++ u).
Proof. intros H Hu. induction H; cbn [app]; [exact Hu|constructor..]; assumption. Qed.

Definition good_name (n : path) : Prop := n <> [] /\ ~ In slash n /\ n <> [dot] /\ n <> [dot; dot].
Lemma named_cases p n : named p n <->
  (exists dir, p = dir ++ n /\ dir_like dir /\ good_name n) \/
  exists q, named q n /\ (p = q ++ [slash] \/ p = q ++ [slash; dot]).
Proof.
  split.
  - intros (dir & t & -> & D & T & G). apply trail_last in T as [->|(t' & T & E)].
    + left. exists dir. rewrite app_nil_r. exact (conj eq_refl (conj D G)).
    + right. exists (dir ++ n ++ t'). split.
      * exists dir, t'. exact (conj eq_refl (conj D (conj T G))).
      * destruct E as [->| ->]; [left|right]; rewrite !app_assoc; reflexivity.
  - intros [(dir & -> & D & G)|(q & (dir & t & -> & D & T & G) & E)].
    + exists dir, []. rewrite app_nil_r. exact (conj eq_refl (conj D (conj trail_nil G))).
    + destruct E as [->| ->].
      * exists dir, (t ++ [slash]). rewrite !app_assoc. split; [reflexivity|]. split; [exact D|]. split; [|exact G].
        apply trail_app; [exact T|repeat constructor].
      * exists dir, (t ++ [slash; dot]). rewrite !app_assoc. split; [reflexivity|]. split; [exact D|]. split; [|exact G].
        apply trail_app; [exact T|apply trail_dot, trail_nil].
Qed.
Lemma last2 (a b : path) x y : a ++ [x] = b ++ [y] -> a = b /\ x = y.
Proof. apply app_inj_tail. Qed.
Lemma named_slash q n : named (q ++ [slash]) n <-> named q n.
Proof.
  split.
  - intros H. apply named_cases in H as [(dir & E & D & G)|(q' & H & [E|E])].
    + exfalso. destruct G as (G1 & G2 & _). destruct (exists_last G1) as (n' & x & ->).
      rewrite app_assoc in E. apply last2 in E as [_ <-]. apply G2. apply in_or_app. right; left; reflexivity.
    + apply last2 in E as [-> _]. exact H.
    + change [slash; dot] with ([slash] ++ [dot]) in E. rewrite app_assoc in E. apply last2 in E as [_ E]. discriminate.
  - intros H. apply named_cases. right. exists q. auto.
Qed.
Lemma named_dot q n : named (q ++ [slash; dot]) n <-> named q n.
Proof.
  split.
  - intros H. apply named_cases in H as [(dir & E & D & G)|(q' & H & [E|E])].
    + exfalso. destruct G as (G1 & G2 & G3 & G4).
      destruct (piece_unique (q ++ [slash]) [dot] dir n) as [_ F].
      * rewrite <- app_assoc. exact E.
      * intros [F|[]]; discriminate.
      * exact G2.
      * right. exists q. reflexivity.
      * exact D.
      * congruence.
    + exfalso. change [slash; dot] with ([slash] ++ [dot]) in E. rewrite app_assoc in E. apply last2 in E as [_ E]. discriminate.
    + apply app_inv_tail in E. subst q'. exact H.
  - intros H. apply named_cases. right. exists q. auto.
Qed.
Lemma file_name_fuel_spec k : forall p, length p < k ->
  match file_name_fuel k p with
  | Some (a, n) => named p n /\ (forall m, named p m -> m = n) /\ dir_like a /\
                   exists t, p = a ++ n ++ t /\ trail t
  | None => forall n, ~ named p n
  end.
Proof.
  induction k as [|k IH]; intros p Hk; [lia|]. cbn [file_name_fuel].
  destruct (last_piece p) as [a n] eqn:E. apply last_piece_spec in E as (-> & N & D).
  destruct n as [|x n].
  - rewrite app_nil_r in *. destruct D as [->|(d & ->)].
    + intros m H. apply named_cases in H as [(dir & E & _ & G)|(q & _ & [E|E])].
      * symmetry in E. apply app_eq_nil in E as [_ E]. exact (proj1 G E).
      * destruct q; discriminate.
      * destruct q; discriminate.
    + assert (Hl : length d < k) by (rewrite app_length in Hk; cbn in Hk; unfold char in *; lia).
      destruct (d ++ [slash]) eqn:Ed; [destruct d; discriminate|]. rewrite <- Ed. rewrite removelast_last.
      specialize (IH d Hl).
      destruct (file_name_fuel k d) as [[a' n']|].
      * destruct IH as (H1 & H2 & H3 & t & H4 & H5). split; [apply named_slash, H1|]. split; [intros m Hm; apply H2, named_slash, Hm|].
        split; [exact H3|]. exists (t ++ [slash]). split; [rewrite H4, !app_assoc; reflexivity|].
        apply trail_app; [exact H5|repeat constructor].
      * intros m Hm. apply (IH m), named_slash, Hm.
  - destruct (str_eqb_spec (x :: n) dot_name) as [E|Hd].
    + rewrite E in *. unfold dot_name in *. destruct D as [->|(d & ->)].
      * intros m H. apply named_cases in H as [(dir & E' & D' & G)|(q & _ & [E'|E'])].
        { destruct (piece_unique [] [dot] dir m) as [_ F]; [exact E'|intros [F|[]]; discriminate|apply G|left; reflexivity|exact D'|].
          destruct G as (_ & _ & G & _). apply G. congruence. }
        { apply (last2 [] q) in E' as [_ E']. discriminate. }
        { destruct q as [|? [|? q]]; discriminate. }
      * assert (Hl : length d < k) by (rewrite !app_length in Hk; cbn in Hk; unfold char in *; lia).
        destruct (d ++ [slash]) eqn:Ed; [destruct d; discriminate|]. rewrite <- Ed, removelast_last.
        specialize (IH d Hl).
        rewrite <- app_assoc. change ([slash] ++ [DOT]) with [slash; dot].
        destruct (file_name_fuel k d) as [[a' n']|].
        { destruct IH as (H1 & H2 & H3 & t & H4 & H5). split; [apply named_dot, H1|]. split; [intros m Hm; apply H2, named_dot, Hm|].
          split; [exact H3|]. exists (t ++ [slash; dot]). split; [rewrite H4, !app_assoc; reflexivity|].
          apply trail_app; [exact H5|apply trail_dot, trail_nil]. }
        { intros m Hm. apply (IH m), named_dot, Hm. }
    + assert (Hother : forall m, named (a ++ x :: n) m -> m = x :: n).
      { intros m H. apply named_cases in H as [(dir & E' & D' & G)|(q & _ & [E'|E'])].
        - destruct (piece_unique a (x :: n) dir m) as [_ F]; try assumption; [apply G|congruence].
        - exfalso. destruct (@exists_last _ (x :: n)) as (n' & y & Ey); [discriminate|]. rewrite Ey, app_assoc in E'.
          apply last2 in E' as [_ ->]. apply N. rewrite Ey. apply in_or_app. right; left; reflexivity.
        - exfalso. destruct (piece_unique a (x :: n) (q ++ [slash]) [dot]) as [_ F]; try assumption.
          + rewrite <- app_assoc. exact E'.
          + intros [F|[]]; discriminate.
          + right. exists q. reflexivity.
          + apply Hd. exact F. }
      destruct (str_eqb_spec (x :: n) dotdot_name) as [E|Hdd].
      * intros m Hm. pose proof (Hother m Hm). subst m. rewrite E in Hm.
        destruct Hm as (dir & t & _ & _ & _ & _ & _ & _ & G). apply G. reflexivity.
      * split; [|split; [exact Hother|]].
        { apply named_cases. left. exists a. split; [reflexivity|]. split; [exact D|]. split; [discriminate|].
          split; [exact N|]. split; [exact Hd|exact Hdd]. }
        split; [exact D|]. exists []. rewrite app_nil_r. split; [reflexivity|constructor].
Qed.
Lemma file_name_iff p n : file_name p = Some n <-> named p n.
Proof.
  unfold file_name, file_name_split. pose proof (file_name_fuel_spec (S (length p)) p ltac:(lia)) as H.
  destruct (file_name_fuel (S (length p)) p) as [[a m]|]; cbn [option_map snd].
  - destruct H as (H1 & H2 & _). split; [intros E; injection E as <-; exact H1|intros Hn; rewrite (H2 n Hn); reflexivity].
  - split; [discriminate|]. intros Hn. destruct (H n Hn).
Qed.
Lemma named_unique p n m : named p n -> named p m -> n = m.
Proof. rewrite <- !file_name_iff. congruence. Qed.

Lemma rsplit_dot_spec f : match rsplit_dot f with
  | Some (b, a) => f = b ++ [dot] ++ a /\ ~ In dot a
  | None => ~ In dot f
  end.
Proof.
  induction f as [|c f IH]; cbn [rsplit_dot]; [intros []|].
  destruct (rsplit_dot f) as [[b a]|].
  - destruct IH as [-> N]. auto.
  - destruct (N.eqb_spec c DOT) as [->|Hc]; [auto|]. intros [H|H]; [contradiction (Hc H)|contradiction].
Qed.
Lemma dot_unique (b a b' a' : path) : b ++ [dot] ++ a = b' ++ [dot] ++ a' -> ~ In dot a -> ~ In dot a' -> b = b' /\ a = a'.
Proof.
  revert b'; induction b as [|x b IH]; intros b' E N N'.
  - destruct b' as [|y b']; cbn in E.
    + injection E as ->. auto.
    + injection E as E1 E2. exfalso. apply N. rewrite E2. apply in_or_app. right; left; reflexivity.
  - destruct b' as [|y b']; cbn in E; injection E as E1 E2.
    + exfalso. apply N'. rewrite <- E2. apply in_or_app. right; left; reflexivity.
    + destruct (IH b' E2 N N') as [-> ->]. rewrite E1. auto.
Qed.
Lemma name_extension_iff f e : name_extension f = Some e <-> exists stem, stem <> [] /\ ~ In dot e /\ f = stem ++ [dot] ++ e.
Proof.
  unfold name_extension. pose proof (rsplit_dot_spec f) as H. destruct (rsplit_dot f) as [[b a]|].
  - destruct H as [-> N]. destruct b as [|x b].
    + split; [discriminate|]. intros (stem & S & Ne & E). destruct (dot_unique [] a stem e E N Ne) as [<- _]. contradiction.
    + split.
      * intros E. injection E as <-. exists (x :: b). repeat split; [discriminate|exact N].
      * intros (stem & S & Ne & E). destruct (dot_unique _ _ _ _ E N Ne) as [_ ->]. reflexivity.
  - split; [discriminate|]. intros (stem & S & Ne & ->). exfalso. apply H. apply in_or_app. right; left; reflexivity.
Qed.
Lemma extension_iff p e : extension p = Some e <-> has_extension p e.
Proof.
  unfold extension, has_extension. destruct (file_name p) as [f|] eqn:E.
  - apply file_name_iff in E. rewrite name_extension_iff. split.
    + intros (stem & S & N & ->). exists stem. auto.
    + intros (stem & S & N & H). exists stem. repeat split; try assumption. eapply named_unique; eassumption.
  - split; [discriminate|]. intros (stem & _ & _ & H). apply file_name_iff in H. congruence.
Qed.
Lemma extension_None p : extension p = None <-> forall e, ~ has_extension p e.
Proof.
  split.
  - intros E e H. apply extension_iff in H. congruence.
  - intros H. destruct (extension p) as [e|] eqn:E; [|reflexivity]. apply extension_iff in E. destruct (H e E).
Qed.
Lemma to_str_iff p s : to_str p = Some s <-> unicode p /\ s = p.
Proof.
  unfold to_str, unicode. destruct (forallb (fun c => N.ltb c 0x110000) p) eqn:E.
  - rewrite forallb_forall in E. split.
    + intros H. injection H as <-. split; [|reflexivity]. apply Forall_forall. intros c Hc. apply N.ltb_lt, E, Hc.
    + intros [_ ->]. reflexivity.
  - split; [discriminate|]. intros [H _]. rewrite Forall_forall in H.
    assert (forallb (fun c => N.ltb c 0x110000) p = true); [|congruence]. apply forallb_forall. intros c Hc. apply N.ltb_lt, H, Hc.
Qed.
Lemma to_str_None p : to_str p = None <-> ~ unicode p.
Proof.
  split.
  - intros E H. assert (to_str p = Some p) by (apply to_str_iff; auto). congruence.
  - intros H. destruct (to_str p) eqn:E; [|reflexivity]. apply to_str_iff in E as [E _]. contradiction.
Qed.
Lemma has_extension_unique p e e' : has_extension p e -> has_extension p e' -> e = e'.
Proof. rewrite <- !extension_iff. congruence. Qed.

(** ** Extensions *)
Lemma no_dot_ext e : ~ In dot e -> ext_from_str e =
  if str_eqb e (lit "csv") then Ok Csv else if str_eqb e (lit "yaml") || str_eqb e (lit "yml") then Ok Yaml
  else Err (UnsupportedFileExtensionError e).
Proof.
  intros H. unfold ext_from_str.
  assert (D : forall x, str_eqb e (dot :: x) = false).
  { intros x. destruct (str_eqb_spec e (dot :: x)) as [->|]; [|reflexivity]. exfalso. apply H. left; reflexivity. }
  change (lit ".csv") with (dot :: lit "csv"). change (lit ".yaml") with (dot :: lit "yaml").
  change (lit ".yml") with (dot :: lit "yml"). rewrite !D. cbn [orb]. rewrite orb_false_r. reflexivity.
Qed.
Lemma ext_path p e : has_extension p e -> unicode e -> ext_from_path p =
  if str_eqb e (lit "csv") then Ok Csv else if str_eqb e (lit "yaml") || str_eqb e (lit "yml") then Ok Yaml
  else Err (UnsupportedFileExtensionError e).
Proof.
  intros H U. unfold ext_from_path. assert (E : extension p = Some e) by (apply extension_iff, H). rewrite E. cbn [bind].
  assert (E2 : to_str e = Some e) by (apply to_str_iff; auto). rewrite E2. cbn [bind].
  apply no_dot_ext. destruct H as (stem & _ & N & _). exact N.
Qed.
Lemma ext_path_none p : (forall e, ~ has_extension p e) -> ext_from_path p = Err (FileExtensionNotFoundInPath p).
Proof. intros H. apply extension_None in H. unfold ext_from_path. rewrite H. reflexivity. Qed.
Lemma ext_path_nonunicode p e : has_extension p e -> ~ unicode e -> ext_from_path p = Err (FileExtensionCanNotConvertToStr p).
Proof.
  intros H U. unfold ext_from_path. assert (E : extension p = Some e) by (apply extension_iff, H). rewrite E. cbn [bind].
  apply to_str_None in U. rewrite U. reflexivity.
Qed.
Lemma unicode_lit_csv : unicode (lit "csv"). Proof. repeat constructor. Qed.
Lemma unicode_lit_yaml : unicode (lit "yaml"). Proof. repeat constructor. Qed.
Lemma unicode_lit_yml : unicode (lit "yml"). Proof. repeat constructor. Qed.
Lemma ext_from_path_cases p :
  (exists e, has_extension p e /\ unicode e) \/ (exists e, has_extension p e /\ ~ unicode e) \/ (forall e, ~ has_extension p e).
Proof.
  destruct (extension p) as [e|] eqn:E.
  - apply extension_iff in E. destruct (to_str e) eqn:E2.
    + left. exists e. split; [exact E|]. apply to_str_iff in E2. apply E2.
    + right; left. exists e. split; [exact E|]. apply to_str_None, E2.
  - right; right. apply extension_None, E.
Qed.
Lemma ext_csv_iff p : ext_from_path p = Ok Csv <-> has_extension p (lit "csv").
Proof.
  split.
  - intros E. destruct (ext_from_path_cases p) as [(e & H & U)|[(e & H & U)|H]].
    + rewrite (ext_path p e H U) in E. destruct (str_eqb_spec e (lit "csv")) as [Ee|_]; [rewrite <- Ee; exact H|].
      destruct (_ || _); discriminate.
    + rewrite (ext_path_nonunicode p e H U) in E. discriminate.
    + rewrite (ext_path_none p H) in E. discriminate.
  - intros H. rewrite (ext_path p _ H unicode_lit_csv). reflexivity.
Qed.
Lemma ext_yaml_iff p : ext_from_path p = Ok Yaml <-> has_extension p (lit "yaml") \/ has_extension p (lit "yml").
Proof.
  split.
  - intros E. destruct (ext_from_path_cases p) as [(e & H & U)|[(e & H & U)|H]].
    + rewrite (ext_path p e H U) in E. destruct (str_eqb_spec e (lit "csv")) as [Ee|_]; [discriminate|].
      destruct (str_eqb_spec e (lit "yaml")) as [Ee|_]; [left; rewrite <- Ee; exact H|].
      destruct (str_eqb_spec e (lit "yml")) as [Ee|_]; [right; rewrite <- Ee; exact H|discriminate].
    + rewrite (ext_path_nonunicode p e H U) in E. discriminate.
    + rewrite (ext_path_none p H) in E. discriminate.
  - intros [H|H]; [rewrite (ext_path p _ H unicode_lit_yaml)|rewrite (ext_path p _ H unicode_lit_yml)]; reflexivity.
Qed.

(** ** Candidates *)
Lemma last_rev (p : path) d : p <> [] -> last p d = hd d (rev p).
Proof.
  intros H. destruct (exists_last H) as (q & x & ->). rewrite rev_app_distr. cbn. apply last_last.
Qed.
Lemma push_in_dir d n : hd_error n <> Some slash -> n <> [] -> push d n = in_dir d n.
Proof.
  intros H Hn. destruct n as [|c n]; [contradiction|]. unfold push, in_dir.
  destruct (N.eqb_spec c SLASH) as [->|_]; [contradiction H; reflexivity|].
  destruct d as [|x d]; [reflexivity|]. rewrite last_rev by discriminate.
  destruct (rev (x :: d)) as [|y r] eqn:E.
  { apply (f_equal (@length N)) in E. rewrite rev_length in E. discriminate. }
  cbn [hd]. destruct (N.eqb_spec y SLASH) as [->|Hy].
  - destruct (N.eq_dec SLASH slash) as [_|C]; [reflexivity|contradiction C; reflexivity].
  - destruct (N.eq_dec y slash) as [->|_]; [contradiction Hy; reflexivity|reflexivity].
Qed.
Lemma in_dir_split d : exists a, dir_like a /\ forall n, in_dir d n = a ++ n.
Proof.
  unfold in_dir. destruct (rev d) as [|c r] eqn:E.
  - exists []. split; [left; reflexivity|reflexivity].
  - apply (f_equal (@rev N)) in E. rewrite rev_involutive in E. cbn in E.
    destruct (N.eq_dec c slash) as [->|Hc].
    + exists d. split; [right; exists (rev r); exact E|reflexivity].
    + exists (d ++ [slash]). split; [right; exists d; reflexivity|]. intros n. rewrite <- app_assoc. reflexivity.
Qed.
Lemma split_in_dir d n : good_name n -> exists a, file_name_split (in_dir d n) = Some (a, n) /\ forall m, in_dir d m = a ++ m.
Proof.
  intros G. destruct (in_dir_split d) as (a & D & E). exists a. split; [|exact E]. rewrite E.
  unfold file_name_split. cbn [file_name_fuel]. rewrite (last_piece_unique a n); [|apply G|exact D].
  destruct n as [|x n]; [destruct G as [G _]; contradiction|].
  destruct (str_eqb_spec (x :: n) dot_name) as [F|_]; [destruct G as (_ & _ & G & _); contradiction|].
  destruct (str_eqb_spec (x :: n) dotdot_name) as [F|_]; [destruct G as (_ & _ & _ & G); contradiction|]. reflexivity.
Qed.
Lemma named_in_dir d n : good_name n -> named (in_dir d n) n.
Proof.
  intros G. destruct (in_dir_split d) as (a & D & E). rewrite E. apply named_cases. left. exists a. auto.
Qed.
Lemma set_ext_in_dir d n e : good_name n -> name_stem n = n -> set_extension (in_dir d n) e = in_dir d (n ++ [dot] ++ e).
Proof.
  intros G S. destruct (split_in_dir d n G) as (a & E1 & E2). unfold set_extension. rewrite E1, S, E2. reflexivity.
Qed.
