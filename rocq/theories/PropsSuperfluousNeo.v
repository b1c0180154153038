(** C103: modifiers next to neologdn that can be left out. *)
From Coq Require Import String.
From Verif Require Import Base BaseFacts Utf8 StrOps Converter Eliminator Reducer Dotted TrimMod Ligature Neologdn ModifierKind ChanomaModel
  CharSpec Spec CharsetFacts ConverterFacts ConverterProps SimpleFacts SimpleProps LigFacts NeoFacts NeoProps PropsConverter PropsNeo PropsPipeline PropsLig NeoMore
  CommProps PropsComm SuperfluousSpec PropsSuperfluous PropsOrigin PropsImage PropsInterchange EditFacts TableFacts.
Local Open Scope string_scope.
Local Open Scope list_scope.
Opaque neo_text.

(** The characters results of neologdn can have. *)
Definition left_by_neologdn (c : char) : Prop := (forall t, ~ neologdn_rel c t) /\ ~ In c tilde_variants.
Definition behind_neologdn (b : modifier) : Prop :=
  match b with
  | MConv _ => forall c, is_scalar c = true -> left_by_neologdn c -> makes b c c
  | MElim el => forall c, In c el -> ~ left_by_neologdn c
  | MRed k => k = space \/ ~ left_by_neologdn k
  | MDot | MTrim => True
  | _ => False
  end.
Definition before_neologdn (a : modifier) : Prop :=
  match a with
  | MConv _ => forall c d, is_scalar c = true -> makes a c d -> exists t u, becomes neologdn_rel c t /\ becomes neologdn_rel d u /\ alike t u
  | MElim el => el = []
  | MRed k => exists t, becomes neologdn_rel k t /\ (t = space \/ t = prolonged_mark \/ In t tilde_variants)
  | MTrim => True
  | _ => False
  end.

Lemma does_neo : does (MNeo NEO) neo_text.
Proof. apply does_of. intros. apply normalize_neo. Qed.
Lemma shape_left s c : In c (neo_text s) -> left_by_neologdn c.
Proof. intros I. destruct (neo_shape s) as (A & B & _). split; [intros t; exact (A c t I)|exact (B c I)]. Qed.
Lemma left_dec c : left_by_neologdn c \/ ~ left_by_neologdn c.
Proof.
  destruct (conv_get (neo_conv NEO) c) as [t|] eqn:E.
  - right. intros [A _]. apply NEO_get in E. exact (A t E).
  - destruct (in_dec N.eq_dec c tilde_variants) as [I|N]; [right; intros [_ B]; exact (B I)|]. left. split; [|exact N]. intros t R. apply NEO_get in R. congruence.
Qed.
Lemma shape_reached l : valid_str l -> neologdn_shape l -> exists s, valid_str s /\ neo_text s = l.
Proof.
  intros V S. apply (C82_neologdn no_order [MNeo NEO] (chanoma_neologdn_eq no_order) l V) in S as (s & Vs & R). exists s. split; [exact Vs|]. apply does_neo in R. congruence.
Qed.
Lemma left_pair c d : left_by_neologdn c -> left_by_neologdn d -> (forall t, ~ composes c d t) -> c <> space -> d <> space -> neologdn_shape [c; d].
Proof.
  intros [A B] [A' B'] N Sc Sd. split; [|split; [|split]].
  - intros x t [<-|[<-|[]]]; [apply A|apply A'].
  - intros x [<-|[<-|[]]]; assumption.
  - intros a m t C (i & u & w & E & _). destruct u as [|y u].
    + cbn [app] in E. injection E as -> -> _. exact (N t C).
    + apply (f_equal (@List.length _)) in E. cbn [app List.length] in E. rewrite app_length in E. cbn [List.length app] in E. lia.
  - apply dotted_ok_between. cbn. repeat split; intros; congruence.
Qed.
Lemma left_between c : left_by_neologdn c -> neologdn_shape [97%N; c; 97%N].
Proof.
  intros [A B]. assert (L97 : left_by_neologdn 97%N). { split; [intros t; apply ascii_neo; reflexivity|]. intros I. repeat destruct I as [I|I]; try discriminate I; exact I. }
  split; [|split; [|split]].
  - intros x t [<-|[<-|[<-|[]]]]; [apply L97|apply A|apply L97].
  - intros x [<-|[<-|[<-|[]]]]; [apply L97|exact B|apply L97].
  - intros a m t C (i & u & w & E & _). assert (K : a <> 97%N /\ m <> 97%N).
    { assert (Q : composition [a; m] [t]) by (exists a, m, t; auto). destruct (composition_facts _ _ Q) as (a' & m' & t' & E1 & _ & F). injection E1 as <- <-.
      split; intros ->; [apply (ef_a_alnum _ _ _ F)|apply (ef_m_alnum _ _ _ F)]; right; right; split; reflexivity || (vm_compute; discriminate). }
    destruct u as [|y [|y' u]]; cbn [app] in E; [injection E; intros; subst; tauto|injection E; intros; subst; tauto|].
    apply (f_equal (@List.length _)) in E. cbn [app List.length] in E. rewrite app_length in E. cbn [List.length app] in E. lia.
  - apply dotted_ok_between. assert (Al : alnum 97%N) by (apply is_alnum_spec; reflexivity). cbn. repeat split; intros; try discriminate; exists 97%N; auto.
Qed.
Lemma neo_valid s : valid_str s -> valid_str (neo_text s).
Proof.
  intros V. apply (C76_text_stays_text [MNeo NEO]) with (s := s); [|repeat constructor|exact V|apply does_neo; reflexivity].
  constructor; [|constructor]. intros n E. exists no_order. assert (H : forall m m', MNeo m = MNeo m' -> m = m') by (intros m m' Q; inversion Q; reflexivity). apply H in E. rewrite <- E. apply neologdn_new_eq.
Qed.
Lemma filter_one el c : In c el -> filter (fun x => negb (mem N.eqb x el)) [97%N; c; 97%N] <> [97%N; c; 97%N].
Proof. intros I E. pose proof (filter_kept _ _ E c (or_intror (or_introl eq_refl))) as H. apply not_mem in H. contradiction. Qed.
Lemma mid_valid c : is_scalar c = true -> valid_str [97%N; c; 97%N].
Proof. intros V. repeat constructor. exact V. Qed.
Lemma space_shape s : spaces_between (neo_text s).
Proof. apply neo_shape. Qed.

Theorem C103_behind_neologdn : forall o n, neologdn_new o = Ok n -> forall b, plain b -> (second_idle (MNeo n) b <-> behind_neologdn b).
Proof.
  intros o n Hn b Pb. rewrite neologdn_new_eq in Hn. apply Ok_inj in Hn. rewrite <- Hn. clear o n Hn. rewrite (second_iff _ _ _ _ does_neo (plain_does b Pb)).
  assert (W : (forall s, valid_str s -> does_what b (neo_text s) = neo_text s) -> forall l, valid_str l -> neologdn_shape l -> does_what b l = l).
  { intros H l V S. destruct (shape_reached l V S) as (s & Vs & <-). apply H, Vs. }
  destruct b as [cc|el|k| |l| |m]; try contradiction; cbn [does_what behind_neologdn plain] in *.
  - split.
    + intros H c V L. specialize (W H _ (mid_valid c V) (left_between c L)). apply makes_conv. cbn [map] in W. injection W as _ E _. symmetry. exact E.
    + intros H s V. apply map_same. intros c I. specialize (H c (valid_In _ (neo_valid s V) c I) (shape_left _ _ I)). apply makes_conv in H. symmetry. exact H.
  - split.
    + intros H c I L. unfold valid_str in Pb. rewrite Forall_forall in Pb. exact (filter_one el c I (W H _ (mid_valid c (Pb c I)) (left_between c L))).
    + intros H s V. apply filter_same. intros c I. apply not_mem. intros I'. exact (H c I' (shape_left _ _ I)).
  - split.
    + intros H. destruct (N.eq_dec k space) as [->|D]; [left; reflexivity|]. right. intros L.
      assert (N : forall t, ~ composes k k t). { intros t C. pose proof (composes_facts _ _ _ C) as F. pose proof (ef_a_mark _ _ _ F). pose proof (ef_m_mark _ _ _ F). congruence. }
      assert (V : valid_str [k; k]) by (repeat constructor; exact Pb). specialize (W H _ V (left_pair k k L L N D D)). rewrite red_pair in W. discriminate W.
    + intros [->|H] s V; [|apply red_absent; intros I; exact (H (shape_left _ _ I))]. rewrite <- (dot_fix _ (space_shape s)). apply red_of_dot.
  - split; [trivial|]. intros _ s _. apply dot_fix, space_shape.
  - split; [trivial|]. intros _ s _. rewrite <- (dot_fix _ (space_shape s)). apply trim_of_dot.
Qed.
Print Assumptions C103_behind_neologdn.

(** Directly before neologdn. *)
Definition mid_part (p : char) (sp b : bool) (w : str) : str := filter not_tilde (dot_rec p sp (red_rec CHOONPU b w)).
Lemma neo_mid s s' : mid_part SPACE false false (neo_conv_text s) = mid_part SPACE false false (neo_conv_text s') -> neo_text s = neo_text s'.
Proof.
  intros H. rewrite !neo_rest_eq. Transparent neo_rest. unfold neo_rest. Opaque neo_rest. f_equal. rewrite !tilde_filter, !dot_modify_rec, !red_modify_rec. exact H.
Qed.
Lemma mid_push w w' : (forall p sp b, mid_part p sp b w = mid_part p sp b w') -> forall l p sp b, mid_part p sp b (l ++ w) = mid_part p sp b (l ++ w').
Proof.
  intros H l. unfold mid_part in *. induction l as [|c l IH]; intros p sp b; [apply H|]. cbn [app red_rec]. destruct (N.eqb CHOONPU c) eqn:E.
  - destruct b; [apply IH|]. cbn [dot_rec]. destruct (N.eqb c SPACE); [apply IH|]. rewrite !filter_app. f_equal. cbn [filter]. rewrite IH. reflexivity.
  - cbn [dot_rec]. destruct (N.eqb c SPACE); [apply IH|]. rewrite !filter_app. f_equal. cbn [filter]. rewrite IH. reflexivity.
Qed.
Lemma mid_twice t w p sp b : t = space \/ t = prolonged_mark \/ In t tilde_variants -> mid_part p sp b (t :: t :: w) = mid_part p sp b (t :: w).
Proof.
  intros [->|[->|T]]; unfold mid_part.
  - change space with SPACE. cbn [red_rec]. change (N.eqb CHOONPU SPACE) with false. cbn iota. cbn [dot_rec]. change (N.eqb SPACE SPACE) with true. cbn iota. change (is_ascii_alphanumeric SPACE) with false. cbn iota. reflexivity.
  - change prolonged_mark with CHOONPU. cbn [red_rec]. change (N.eqb CHOONPU CHOONPU) with true. cbn iota. destruct b; reflexivity.
  - destruct (tilde_facts t T) as (A & B & C & D). cbn [red_rec]. apply not_eq_sym in A. apply N.eqb_neq in A. rewrite A. apply N.eqb_neq in B. cbn [dot_rec]. rewrite B, C. cbn [app].
    destruct sp; cbn [app filter]; rewrite D; reflexivity.
Qed.
Lemma red_steps k (P : str -> str) : (forall a b, P (a ++ k :: k :: b) = P (a ++ k :: b)) -> forall s, P (red_rec k false s) = P s.
Proof.
  intros H s. assert (G : forall s a, P (a ++ red_rec k false s) = P (a ++ s) /\ P (a ++ k :: red_rec k true s) = P (a ++ k :: s)); [|exact (proj1 (G s []))].
  clear s. induction s as [|c s IH]; intros a; [split; reflexivity|]. cbn [red_rec]. destruct (N.eqb_spec k c) as [<-|D].
  - split; [apply (IH a)|]. rewrite H. apply (IH a).
  - destruct (IH (a ++ [c])) as [A _]. destruct (IH (a ++ [k; c])) as [B _]. rewrite <- !app_assoc in A, B. split; assumption.
Qed.
Lemma mid_lead n w p sp b : p = SPACE -> b = false -> mid_part p sp b (repeat SPACE n ++ w) = mid_part p sp b w.
Proof.
  intros -> ->. unfold mid_part. induction n as [|n IH]; [reflexivity|]. cbn [repeat app red_rec]. change (N.eqb CHOONPU SPACE) with false. cbn iota. cbn [dot_rec].
  change (N.eqb SPACE SPACE) with true. cbn iota. change (is_ascii_alphanumeric SPACE) with false. cbn iota. exact IH.
Qed.
Lemma mid_tail n p sp b : mid_part p sp b (repeat SPACE n) = mid_part p sp b [].
Proof.
  unfold mid_part. revert p sp b. induction n as [|n IH]; intros p sp b; [reflexivity|]. cbn [repeat app red_rec]. change (N.eqb CHOONPU SPACE) with false. cbn iota. cbn [dot_rec].
  change (N.eqb SPACE SPACE) with true. cbn iota. rewrite IH. reflexivity.
Qed.
Lemma repeat_map (f : char -> char) x n : map f (repeat x n) = repeat (f x) n.
Proof. induction n as [|n IH]; [reflexivity|]. cbn [repeat map]. rewrite IH. reflexivity. Qed.
Lemma neo_trim s : neo_text (trim_modify s) = neo_text s.
Proof.
  destruct (trim_modify_trimmed s) as (_ & _ & i & j & E). symmetry. apply neo_mid. rewrite E at 1. unfold neo_conv_text. rewrite !map_app, !repeat_map.
  change (conv1 (neo_conv NEO) space) with SPACE. rewrite mid_lead by reflexivity.
  transitivity (mid_part SPACE false false (map (conv1 (neo_conv NEO)) (trim_modify s) ++ [])); [|rewrite app_nil_r; reflexivity]. apply mid_push. intros. apply mid_tail.
Qed.

Lemma B_neo c t : becomes neologdn_rel c t <-> t = conv1 (neo_conv NEO) c.
Proof. apply becomes_conv1, NEO_get. Qed.
Lemma neo_of_conv s s' : neo_conv_text s = neo_conv_text s' -> neo_text s = neo_text s'.
Proof. intros H. rewrite !neo_rest_eq, H. reflexivity. Qed.
Lemma tilde_test t : existsb (N.eqb t) tilde_variants = true <-> In t tilde_variants.
Proof. rewrite existsb_exists. split; [intros (d & I & E); apply N.eqb_eq in E; congruence|intros I; exists t; split; [exact I|apply N.eqb_refl]]. Qed.
Lemma neo_pair k t : becomes neologdn_rel k t -> t <> space -> t <> prolonged_mark -> ~ In t tilde_variants -> neo_text [k; k] = [t; t].
Proof.
  intros R D1 D2 D3. assert (E1 : neo_text [k] = [t]).
  { rewrite (neo_single k t R). destruct (N.eqb_spec t space); [contradiction|]. destruct (existsb (N.eqb t) tilde_variants) eqn:E; [apply tilde_test in E; contradiction|reflexivity]. }
  assert (L : left_by_neologdn t) by (apply (shape_left [k]); rewrite E1; left; reflexivity).
  transitivity (neo_text [t; t]).
  - apply neo_of_conv. unfold neo_conv_text. cbn [map]. apply B_neo in R. rewrite <- R. assert (Q : becomes neologdn_rel t t) by (right; split; [reflexivity|apply L]). apply B_neo in Q. rewrite <- Q. reflexivity.
  - apply neo_fix. split.
    + apply left_pair; auto. intros u C. pose proof (composes_facts _ _ _ C) as F. pose proof (ef_a_mark _ _ _ F). pose proof (ef_m_mark _ _ _ F). congruence.
    + intros (i & u & w & E & _). destruct u as [|y u]; [cbn [app] in E; injection E as E _; congruence|].
      apply (f_equal (@List.length _)) in E. cbn [app List.length] in E. rewrite app_length in E. cbn [List.length app] in E. lia.
Qed.

Lemma mark_gap u : u = space \/ In u tilde_variants -> neo_rest [prolonged_mark; prolonged_mark] <> neo_rest [prolonged_mark; u; prolonged_mark].
Proof. intros H. cbn in H. destruct H as [->|[<-|[<-|[<-|[<-|[<-|[<-|[]]]]]]]]; vm_compute; discriminate. Qed.
Lemma space_gap : neo_rest [97; 97]%N <> neo_rest [97; space; 97]%N.
Proof. vm_compute. discriminate. Qed.
Lemma conv_ends c : conv1 (neo_conv NEO) 97%N = 97%N /\ conv1 (neo_conv NEO) prolonged_mark = prolonged_mark /\ conv1 (neo_conv NEO) space = space /\ neo_text [c] = neo_rest [conv1 (neo_conv NEO) c].
Proof. repeat split; vm_compute; reflexivity. Qed.

Theorem C103_before_neologdn : forall o n, neologdn_new o = Ok n -> forall a, plain a -> (first_idle a (MNeo n) <-> before_neologdn a).
Proof.
  intros o n Hn a Pa. rewrite neologdn_new_eq in Hn. apply Ok_inj in Hn. rewrite <- Hn. clear o n Hn. rewrite (first_iff _ _ _ _ (plain_does a Pa) does_neo).
  destruct a as [cc|el|k| |l| |m]; try contradiction; cbn [does_what before_neologdn plain] in *.
  - split.
    + intros H c d V M. apply makes_conv in M. subst d. set (d := conv1 cc c) in *.
      exists (conv1 (neo_conv NEO) c), (conv1 (neo_conv NEO) d). split; [apply B_neo; reflexivity|]. split; [apply B_neo; reflexivity|].
      assert (S : forall x, is_scalar x = true -> neo_text [conv1 cc x] = neo_text [x]) by (intros x Vx; apply (H [x]); repeat constructor; exact Vx).
      assert (X : becomes neologdn_rel c (conv1 (neo_conv NEO) c)) by (apply B_neo; reflexivity).
      assert (Y : becomes neologdn_rel d (conv1 (neo_conv NEO) d)) by (apply B_neo; reflexivity).
      assert (A : conv1 (neo_conv NEO) (conv1 cc 97%N) = 97%N).
      { pose proof (S 97%N eq_refl) as E. assert (Y' : becomes neologdn_rel (conv1 cc 97%N) (conv1 (neo_conv NEO) (conv1 cc 97%N))) by (apply B_neo; reflexivity).
        rewrite (neo_single _ _ Y') in E. assert (X' : becomes neologdn_rel 97%N 97%N) by (apply B_neo; reflexivity). rewrite (neo_single _ _ X') in E.
        change ((97 =? space)%N || existsb (N.eqb 97) tilde_variants)%bool with false in E. cbn iota in E. destruct (_ || _)%bool; [discriminate E|]. congruence. }
      pose proof (H _ (mid_valid c V)) as S2. rewrite !neo_rest_eq in S2. unfold neo_conv_text in S2. cbn [map] in S2. fold d in S2. rewrite A in S2. change (conv1 (neo_conv NEO) 97%N) with 97%N in S2.
      pose proof (S c V) as S1. fold d in S1. rewrite (neo_single _ _ X), (neo_single _ _ Y) in S1.
      revert X Y S1 S2. generalize (conv1 (neo_conv NEO) c), (conv1 (neo_conv NEO) d). intros t u _ _ S1 S2.
      destruct (N.eqb_spec t space) as [Ht|Ht]; destruct (N.eqb_spec u space) as [Hu|Hu]; cbn [orb] in S1.
      * left. congruence.
      * subst t. destruct (existsb (N.eqb u) tilde_variants) eqn:Q; [|discriminate S1]. exfalso. apply tilde_test in Q. exact (space_tilde u Q (eq_sym S2)).
      * subst u. destruct (existsb (N.eqb t) tilde_variants) eqn:Q; [|discriminate S1]. exfalso. apply tilde_test in Q. exact (space_tilde t Q S2).
      * destruct (existsb (N.eqb t) tilde_variants) eqn:Q, (existsb (N.eqb u) tilde_variants) eqn:Q'; try discriminate S1.
        -- right. apply tilde_test in Q, Q'. auto.
        -- left. congruence.
    + intros H s V. symmetry. apply neo_alike. unfold neo_conv_text. rewrite map_map. induction V as [|c s Vc V IH]; [constructor|]. cbn [map]. constructor; [|exact IH].
      destruct (H c (conv1 cc c) Vc) as (t & u & X & Y & L); [apply makes_conv; reflexivity|]. apply B_neo in X, Y. rewrite <- X, <- Y. exact L.
  - split.
    + intros H. destruct el as [|c el]; [reflexivity|]. exfalso. inversion Pa as [|? ? Vc _]; subst.
      assert (K : forall l r, valid_str l -> filter (fun x => negb (mem N.eqb x (c :: el))) l = r -> neo_text r = neo_text l) by (intros l r Vl <-; apply H, Vl).
      assert (Ic : negb (mem N.eqb c (c :: el)) = false) by (cbn [mem existsb]; rewrite N.eqb_refl; reflexivity).
      assert (X : becomes neologdn_rel c (conv1 (neo_conv NEO) c)) by (apply B_neo; reflexivity).
      assert (S1 : neo_text [] = neo_text [c]) by (apply K; [repeat constructor; exact Vc|]; cbn [filter]; rewrite Ic; reflexivity).
      rewrite (neo_single _ _ X) in S1. assert (S0 : neo_text [] = []) by (vm_compute; reflexivity). rewrite S0 in S1.
      assert (G : forall y, negb (mem N.eqb y (c :: el)) = true -> is_scalar y = true -> neo_text [y; y] = neo_text [y; c; y]).
      { intros y Iy Vy. apply K; [repeat constructor; assumption|]. cbn [filter]. rewrite Ic, Iy. reflexivity. }
      assert (Y : forall y, is_scalar y = true -> becomes neologdn_rel y y -> y <> space -> ~ In y tilde_variants -> negb (mem N.eqb y (c :: el)) = true).
      { intros y Vy By Ny Ty. destruct (negb (mem N.eqb y (c :: el))) eqn:Q; [reflexivity|]. exfalso.
        assert (S2 : neo_text [] = neo_text [y]) by (apply K; [repeat constructor; exact Vy|]; cbn [filter]; rewrite Q; reflexivity). rewrite S0, (neo_single _ _ By) in S2.
        destruct (N.eqb_spec y space); [contradiction|]. destruct (existsb (N.eqb y) tilde_variants) eqn:Q'; [apply tilde_test in Q'; contradiction|]. discriminate S2. }
      assert (N97 : forall y, In y tilde_variants -> y <> 97%N /\ y <> prolonged_mark) by (intros y Iy; split; intros ->; vm_compute in Iy; repeat (destruct Iy as [Iy|Iy]; [discriminate Iy|]); exact Iy).
      assert (Y1 : negb (mem N.eqb 97%N (c :: el)) = true) by (apply Y; [reflexivity|apply B_neo; reflexivity|discriminate|intros I; destruct (N97 _ I); congruence]).
      assert (Y2 : negb (mem N.eqb prolonged_mark (c :: el)) = true) by (apply Y; [reflexivity|apply B_neo; symmetry; apply (conv_ends c)|discriminate|intros I; destruct (N97 _ I); congruence]).
      apply G in Y1; [|reflexivity]. apply G in Y2; [|reflexivity]. rewrite !neo_rest_eq in Y1, Y2. unfold neo_conv_text in Y1, Y2. cbn [map] in Y1, Y2.
      destruct (conv_ends c) as (-> & _) in Y1. destruct (conv_ends c) as (_ & -> & _) in Y2. revert S1 Y1 Y2. clear. generalize (conv1 (neo_conv NEO) c). intros t S1 Y1 Y2.
      destruct (N.eqb_spec t space) as [Ht|Ht]; [rewrite Ht in Y1; exact (space_gap Y1)|]. cbn [orb] in S1. destruct (existsb (N.eqb t) tilde_variants) eqn:Q; [|discriminate S1].
      apply tilde_test in Q. exact (mark_gap t (or_intror Q) Y2).
    + intros -> s _. f_equal. apply filter_same. reflexivity.
  - split.
    + intros H. exists (conv1 (neo_conv NEO) k). assert (R : becomes neologdn_rel k (conv1 (neo_conv NEO) k)) by (apply B_neo; reflexivity). split; [exact R|].
      assert (V : valid_str [k; k]) by (repeat constructor; exact Pa). specialize (H _ V). rewrite red_pair in H.
      destruct (N.eq_dec (conv1 (neo_conv NEO) k) space) as [|D1]; [auto|]. destruct (N.eq_dec (conv1 (neo_conv NEO) k) prolonged_mark) as [|D2]; [auto|].
      destruct (in_dec N.eq_dec (conv1 (neo_conv NEO) k) tilde_variants) as [|D3]; [auto|]. exfalso. rewrite (neo_pair _ _ R D1 D2 D3), (neo_single _ _ R) in H.
      destruct (_ || _)%bool in H; discriminate H.
    + intros (t & R & T) s _. apply red_steps. intros a b. apply neo_mid. unfold neo_conv_text. rewrite !map_app. cbn [map]. apply B_neo in R. rewrite <- R. apply mid_push. intros. apply mid_twice, T.
  - split; [|contradiction]. intros H. assert (V : valid_str [prolonged_mark; space; prolonged_mark]) by (repeat constructor). specialize (H _ V).
    change (dot_rec SPACE false [prolonged_mark; space; prolonged_mark]) with [prolonged_mark; prolonged_mark] in H. rewrite !neo_rest_eq in H. unfold neo_conv_text in H. cbn [map] in H.
    destruct (conv_ends space) as (_ & E1 & E2 & _). rewrite E1, E2 in H. exact (mark_gap space (or_introl eq_refl) H).
  - split; [trivial|]. intros _ s _. apply neo_trim.
Qed.
Print Assumptions C103_before_neologdn.

(** Neologdn does by itself whatever a part of its conversion table does before it or behind it. *)
Theorem C103_part_of_neologdn : forall o n, neologdn_new o = Ok n -> forall cc, NoDup (map fst cc) -> (forall c d, In (c, d) cc -> neologdn_rel c d) ->
  second_idle (MNeo n) (MConv cc) /\ first_idle (MConv cc) (MNeo n).
Proof.
  intros o n Hn cc Nd H. rewrite (C103_behind_neologdn o n Hn), (C103_before_neologdn o n Hn) by exact I. cbn [behind_neologdn before_neologdn].
  assert (G : forall c t, conv_get cc c = Some t <-> In (c, t) cc) by (intros; apply conv_get_iff, Nd). split.
  - intros c _ [L _]. apply makes_conv. unfold conv1. destruct (conv_get cc c) as [t|] eqn:E; [|reflexivity]. apply G, H in E. destruct (L t E).
  - intros c d _ M. apply makes_conv in M. unfold conv1 in M. destruct (conv_get cc c) as [t|] eqn:E.
    + apply G, H in E. subst t. exists d, d. split; [left; exact E|]. split; [right; split; [reflexivity|intros u; exact (neologdn_rel_final _ _ _ E)]|left; reflexivity].
    + subst d. exists (conv1 (neo_conv NEO) c), (conv1 (neo_conv NEO) c). repeat split; try (apply B_neo; reflexivity). left. reflexivity.
Qed.
Print Assumptions C103_part_of_neologdn.
(** A modifier superfluous next to another is so within every pipeline. *)
Theorem C103_anywhere : forall c1 c2 a b, Forall constructible c1 -> Forall text_replacements c1 ->
  (second_idle a b -> forall s out, valid_str s -> (result (c1 ++ [a; b] ++ c2) s out <-> result (c1 ++ [a] ++ c2) s out)) /\
  (first_idle a b -> forall s out, valid_str s -> (result (c1 ++ [a; b] ++ c2) s out <-> result (c1 ++ [b] ++ c2) s out)).
Proof.
  intros c1 c2 a b C T.
  assert (G : forall m, (forall s out, valid_str s -> (result [a; b] s out <-> result m s out)) -> forall s out, valid_str s -> (result (c1 ++ [a; b] ++ c2) s out <-> result (c1 ++ m ++ c2) s out)).
  { intros m H s out V. rewrite !result_app. split; intros (x & R1 & R2); exists x; (split; [exact R1|]); apply result_app in R2 as (y & R2 & R3); apply result_app; exists y; (split; [|exact R3]);
      apply (H x y (C76_text_stays_text c1 C T s x V R1)); exact R2. }
  split; intros H; apply G; exact H.
Qed.
Print Assumptions C103_anywhere.
(** Space runs, outer spaces and dashes need no treatment before neologdn; removing spaces does change results, and so does the whole preset. *)
Example C103_case_neologdn : exists n, neologdn_new no_order = Ok n /\ first_idle (MRed space) (MNeo n) /\ first_idle (MRed 0x2014%N) (MNeo n) /\ first_idle (MRed 0x3000%N) (MNeo n) /\
  ~ first_idle (MRed 97%N) (MNeo n) /\ ~ first_idle (MElim [0x7E%N]) (MNeo n) /\ second_idle (MNeo n) (MElim [0x7E; 0x2014]%N) /\ ~ second_idle (MNeo n) (MElim [space]) /\
  second_idle (MNeo n) (MRed 0x7E%N) /\ ~ second_idle (MNeo n) (MRed prolonged_mark) /\ ~ second_idle (MNeo n) (MConv [(0xFF1D, 0x3D)]%N) /\
  first_idle (MConv [(0x2212, 0x2010); (0x301C, 0x223C)]%N) (MNeo n) /\ ~ first_idle (MConv [(0x2014, 0x2010)]%N) (MNeo n).
Proof.
  exists NEO. assert (H : neologdn_new no_order = Ok NEO) by apply neologdn_new_eq. split; [exact H|].
  assert (V : forall l, forallb is_scalar l = true -> valid_str l) by (intros l Q; apply Forall_forall; intros c I; rewrite forallb_forall in Q; apply Q, I).
  assert (N : forall c, conv_get (neo_conv NEO) c = None -> forall t, ~ neologdn_rel c t) by (intros c E t R; apply NEO_get in R; congruence).
  rewrite !(C103_before_neologdn _ _ H), !(C103_behind_neologdn _ _ H) by (exact I || reflexivity || (apply V; reflexivity)). cbn [before_neologdn behind_neologdn].
  split; [exists space; split; [apply B_neo; vm_compute; reflexivity|auto]|].
  split; [exists prolonged_mark; split; [apply B_neo; vm_compute; reflexivity|auto]|].
  split; [exists space; split; [apply B_neo; vm_compute; reflexivity|auto]|].
  split.
  { intros (t & R & T). apply B_neo in R. assert (E : conv1 (neo_conv NEO) 97%N = 97%N) by (vm_compute; reflexivity). rewrite E in R. subst t.
    destruct T as [T|[T|T]]; [discriminate T|discriminate T|]. vm_compute in T. repeat (destruct T as [T|T]; [discriminate T|]). exact T. }
  split; [discriminate|].
  split.
  { intros c [<-|[<-|[]]] [L L']; [apply L'; cbn; auto|]. apply (L prolonged_mark). apply nr_dash. cbn. auto. }
  split.
  { intros Q. apply (Q space); [left; reflexivity|]. split; [apply N; vm_compute; reflexivity|]. intros T. vm_compute in T. repeat (destruct T as [T|T]; [discriminate T|]). exact T. }
  split; [right; intros [_ L]; apply L; cbn; auto|].
  split.
  { intros [Q|Q]; [discriminate Q|]. apply Q. split; [apply N; vm_compute; reflexivity|]. intros T. vm_compute in T. repeat (destruct T as [T|T]; [discriminate T|]). exact T. }
  split.
  { intros Q. assert (M : makes (MConv [(0xFF1D, 0x3D)]%N) 0xFF1D%N 0xFF1D%N).
    { apply Q; [reflexivity|]. split; [apply N; vm_compute; reflexivity|]. intros T. vm_compute in T. repeat (destruct T as [T|T]; [discriminate T|]). exact T. }
    apply makes_conv in M. discriminate M. }
  split.
  { intros c d _ M. apply makes_conv in M. unfold conv1 in M. exists (conv1 (neo_conv NEO) c), (conv1 (neo_conv NEO) d). split; [apply B_neo; reflexivity|]. split; [apply B_neo; reflexivity|].
    cbn in M. destruct (N.eqb_spec c 0x2212) as [E|_]; [subst c d; left; vm_compute; reflexivity|]. destruct (N.eqb_spec c 0x301C) as [E|_]; [subst c d; right; vm_compute; auto|]. subst d. left. reflexivity. }
  intros Q. destruct (Q 0x2014%N 0x2010%N) as (t & u & R & R' & A); [reflexivity|apply makes_conv; reflexivity|]. apply B_neo in R, R'. vm_compute in R, R'. subst t u.
  destruct A as [A|[A _]]; [discriminate A|]. vm_compute in A. repeat (destruct A as [A|A]; [discriminate A|]). exact A.
Qed.
