(** Property C86: which characters can be exchanged for each other in every text. *)
From Coq Require Import String.
From Verif Require Import Base BaseFacts Utf8 StrOps Corr Table Converter Eliminator Reducer Dotted TrimMod Ligature Charset Neologdn ModifierKind ChanomaModel
  CharsetData CharSpec Spec CharsetFacts ConverterFacts TableFacts ConverterProps SimpleFacts SimpleProps LigFacts NeoFacts NeoProps PropsConverter PropsNeo PropsPipeline CommProps PropsLig.
Local Open Scope string_scope.
Local Open Scope list_scope.

(** [x] can be written for [y] anywhere without changing the results. *)
Definition interchangeable (c : chanoma) (x y : char) : Prop :=
  forall a b out, result c (a ++ [x] ++ b) out <-> result c (a ++ [y] ++ b) out.
(** What a character becomes under a table. *)
Definition becomes (R : char -> char -> Prop) (c t : char) : Prop := R c t \/ (t = c /\ forall u, ~ R c u).

Lemma does_inter m f x y : does m f -> (interchangeable [m] x y <-> forall a b, f (a ++ [x] ++ b) = f (a ++ [y] ++ b)).
Proof.
  intros D. unfold interchangeable. split.
  - intros H a b. apply D. apply (H a b). apply D. reflexivity.
  - intros H a b out. unfold does in D. rewrite (D (a ++ [x] ++ b) out), (D (a ++ [y] ++ b) out), H. reflexivity.
Qed.
Lemma becomes_conv1 cc (R : char -> char -> Prop) c t : (forall c t, conv_get cc c = Some t <-> R c t) -> (becomes R c t <-> t = conv1 cc c).
Proof.
  intros H. unfold becomes, conv1. destruct (conv_get cc c) as [u|] eqn:E.
  - split; [|intros ->; left; apply H, E]. intros [Q|[-> Q]]; [apply H in Q; congruence|]. apply H in E. destruct (Q _ E).
  - split; [|intros ->; right; split; [reflexivity|intros u Q; apply H in Q; congruence]]. intros [Q|[-> Q]]; [|reflexivity].
    apply H in Q. congruence.
Qed.

Lemma Forall2_same {A} (R : A -> A -> Prop) l : (forall x, R x x) -> Forall2 R l l.
Proof. intros H. induction l; constructor; auto. Qed.

(** ** C86 *)
(** Exchanging several characters... *)
Theorem C86_many : forall c s s', Forall2 (interchangeable c) s s' -> forall out, result c s out <-> result c s' out.
Proof.
  intros c s s' H. assert (G : forall p out, result c (p ++ s) out <-> result c (p ++ s') out); [|exact (G [])].
  induction H as [|x y s s' Hx H IH]; intros p out; [reflexivity|].
  rewrite (Hx p s out). cbn [app]. specialize (IH (p ++ [y]) out). rewrite <- !app_assoc in IH. exact IH.
Qed.
Print Assumptions C86_many.
(** ... and adding stages at the end. *)
Theorem C86_more_stages : forall c c' x y, interchangeable c x y -> interchangeable (c ++ c') x y.
Proof.
  intros c c' x y H a b out. rewrite !result_app. split; intros (mid & A & B); exists mid; (split; [apply H, A|exact B]).
Qed.
Print Assumptions C86_more_stages.
Lemma inter_conv cc R x y : (forall c t, conv_get cc c = Some t <-> R c t) ->
  (interchangeable [MConv cc] x y <-> exists t, becomes R x t /\ becomes R y t).
Proof.
  intros HR. rewrite (does_inter _ _ x y (does_conv cc)). split.
  - intros H. specialize (H [] []). cbn in H. injection H as H. exists (conv1 cc x). rewrite !(becomes_conv1 cc R _ _ HR). auto.
  - intros (t & A & B) a b. apply (becomes_conv1 cc R _ _ HR) in A. apply (becomes_conv1 cc R _ _ HR) in B. rewrite !map_app. cbn [map]. congruence.
Qed.
Theorem C86_conversion : forall cc x y, NoDup (map fst cc) ->
  (interchangeable [MConv cc] x y <-> exists t, becomes (fun c t => In (c, t) cc) x t /\ becomes (fun c t => In (c, t) cc) y t).
Proof. intros cc x y N. apply inter_conv. intros c t. apply conv_get_iff, N. Qed.
Print Assumptions C86_conversion.
Theorem C86_preset : forall o ch, chanoma_preset o = Ok ch -> forall x y,
  interchangeable ch x y <-> exists t, becomes preset_rel x t /\ becomes preset_rel y t.
Proof.
  intros o ch H x y. rewrite chanoma_preset_eq in H. apply Ok_inj in H. rewrite <- H. exact (inter_conv PRESET preset_rel x y PRESET_get).
Qed.
Print Assumptions C86_preset.
(** So texts have the same conversion result exactly if they agree up to interchangeable characters. *)
Theorem C86_conversion_kernel : forall cc s s', NoDup (map fst cc) ->
  ((exists out, result [MConv cc] s out /\ result [MConv cc] s' out) <-> Forall2 (interchangeable [MConv cc]) s s').
Proof.
  intros cc s s' N. split.
  - intros (out & A & B). apply (does_conv cc) in A. apply (does_conv cc) in B. subst out. revert s' B.
    induction s as [|x s IH]; intros [|y s'] B; cbn [map] in B; try discriminate; constructor.
    + injection B as B _. apply (does_inter _ _ x y (does_conv cc)). intros a b. rewrite !map_app. cbn [map]. congruence.
    + apply IH. injection B as _ B. exact B.
  - intros H. exists (map (conv1 cc) s). split; [apply does_conv; reflexivity|]. apply (C86_many _ _ _ H). apply does_conv. reflexivity.
Qed.
Print Assumptions C86_conversion_kernel.
Theorem C86_elimination : forall el x y, interchangeable [MElim el] x y <-> x = y \/ (In x el /\ In y el).
Proof.
  intros el x y. rewrite (does_inter _ _ x y (does_elim el)). split.
  - intros H. specialize (H [] []). cbn in H.
    destruct (mem N.eqb x el) eqn:Ex, (mem N.eqb y el) eqn:Ey; cbn [negb] in H; try discriminate.
    + right. split; apply (mem_In N.eqb N.eqb_eq); assumption.
    + left. injection H as H. exact H.
  - intros [->|[Hx Hy]] a b; [reflexivity|]. apply (mem_In N.eqb N.eqb_eq) in Hx, Hy. rewrite !filter_app. cbn [filter]. rewrite Hx, Hy. reflexivity.
Qed.
Print Assumptions C86_elimination.
(** Run reduction, trimming and dotted-space elimination distinguish all characters. *)
Theorem C86_reduction : forall k x y, interchangeable [MRed k] x y <-> x = y.
Proof.
  intros k x y. split; [|intros ->; intros a b out; reflexivity]. rewrite (does_inter _ _ x y (does_red k)). intros H. specialize (H [] []). cbn in H.
  destruct (N.eqb k x), (N.eqb k y); injection H as H; exact H.
Qed.
Print Assumptions C86_reduction.
Theorem C86_trimming : forall x y, interchangeable [MTrim] x y <-> x = y.
Proof.
  intros x y. split; [|intros ->; intros a b out; reflexivity]. rewrite (does_inter _ _ x y does_trim). intros H. specialize (H [97%N] [97%N]).
  assert (T : forall z, trim_modify [97%N; z; 97%N] = [97%N; z; 97%N]).
  { intros z. apply (trim_parts_eq _ 0 _ 0). split; [reflexivity|]. split; [discriminate|]. split; discriminate. }
  cbn [app] in H. rewrite !T in H. congruence.
Qed.
Print Assumptions C86_trimming.
Theorem C86_dotted : forall x y, interchangeable [MDot] x y <-> x = y.
Proof.
  intros x y. split; [|intros ->; intros a b out; reflexivity]. rewrite (does_inter _ _ x y does_dot). intros H. specialize (H [97%N] [97%N]).
  assert (T : forall z, dot_rec SPACE false [97%N; z; 97%N] = [97%N; z; 97%N]).
  { intros z. cbn. destruct (N.eqb_spec z SPACE) as [->|]; reflexivity. }
  cbn [app] in H. rewrite !T in H. congruence.
Qed.
Print Assumptions C86_dotted.

(** Ligatures that do not interfere: the characters with the same result on their own. *)
Lemma replaced_split (R : str -> str -> Prop) x t b B : (forall k v, R k v -> k <> [] /\ (In x k -> k = [x])) -> replaced R [x] t -> replaced R b B ->
  forall a A, replaced R a A -> replaced R (a ++ [x] ++ b) (A ++ t ++ B).
Proof.
  intros K X HB. induction 1 as [|k v s out Hk Hr H IH|c s out Hm H IH].
  - cbn [app]. inversion X as [|k v s out Hk Hr H E1 E2|c s out Hm H E1 E2]; subst.
    + destruct k as [|c k]; [destruct (Hk eq_refl)|]. cbn [app] in E1. injection E1 as -> E1. apply app_eq_nil in E1 as [-> ->].
      inversion H; subst; [|destruct k; [congruence|discriminate]]. rewrite app_nil_r. apply (rep_hit R [x] v b B); [discriminate|exact Hr|exact HB].
    + inversion H; subst; [|destruct k; [congruence|discriminate]]. cbn [app]. apply rep_miss; [|exact HB].
      intros k v Hr (r & E). destruct (K k v Hr) as [Hk Kx]. destruct k as [|d k]; [congruence|]. cbn [app] in E. injection E as <- E.
      specialize (Kx (or_introl eq_refl)). injection Kx as ->. apply (Hm [x] v Hr). exists []. reflexivity.
  - rewrite <- !app_assoc. apply rep_hit; assumption.
  - cbn [app]. apply rep_miss; [|exact IH]. intros k v Hr (r & E).
    assert (E' : (c :: s) ++ [x] ++ b = k ++ r) by exact E. apply app_eq_app in E' as (l & [[E1 E2]|[E1 E2]]).
    + apply (Hm k v Hr). exists l. exact E1.
    + destruct l as [|z l]; [apply (Hm k v Hr); exists []; rewrite app_nil_r in *; congruence|].
      cbn [app] in E2. injection E2 as <- E2. destruct (K k v Hr) as [_ Kx].
      assert (Ik : In x k) by (rewrite E1; apply in_app_iff; right; left; reflexivity). apply Kx in Ik. rewrite E1 in Ik. destruct s; discriminate.
Qed.
Lemma replaced_one (R : str -> str -> Prop) x t : replaced R [x] t -> R [x] t \/ (t = [x] /\ forall v, ~ R [x] v).
Proof.
  intros X. inversion X as [|k v s out Hk Hr H E1 E2|c s out Hm H E1 E2]; subst.
  - destruct k as [|c k]; [destruct (Hk eq_refl)|]. cbn [app] in E1. injection E1 as -> E1. apply app_eq_nil in E1 as [-> ->].
    inversion H; subst; [|destruct k; [congruence|discriminate]]. left. rewrite (app_nil_r v). exact Hr.
  - inversion H; subst; [|destruct k; [congruence|discriminate]]. right. split; [reflexivity|]. intros v Hr. apply (Hm [x] v Hr). exists []. reflexivity.
Qed.
Theorem C86_ligatures : forall m, NoDup (map fst m) -> non_interfering m -> forall x y,
  (interchangeable [MLig m] x y <-> exists t, replaced (fun k v => In (k, v) m) [x] t /\ replaced (fun k v => In (k, v) m) [y] t).
Proof.
  intros m ND NI x y. set (R := fun k v => In (k, v) m).
  assert (D : forall s out, result [MLig m] s out <-> replaced R s out).
  { intros s out. destruct (C21_simultaneous false no_order m s ND NI) as (out' & E & U & G & _). change (replaced R s out) with (replaced (fun k v => In (k, v) m) s out). rewrite (U out). split.
    - intros (o & H). rewrite (G false o) in H. injection H as <-. reflexivity.
    - intros ->. exists no_order. exact E. }
  assert (T : forall s, exists out, replaced R s out).
  { intros s. destruct (C21_simultaneous false no_order m s ND NI) as (out & _ & U & _). exists out. apply U. reflexivity. }
  assert (F : forall s o1 o2, replaced R s o1 -> replaced R s o2 -> o1 = o2).
  { intros s o1 o2 H1 H2. destruct (C21_simultaneous false no_order m s ND NI) as (out & _ & U & _). apply U in H1, H2. congruence. }
  split.
  - intros I. destruct (T [x]) as (t & X). exists t. split; [exact X|]. apply D. apply (I [] []). apply D. exact X.
  - intros (t & X & Y). destruct (N.eq_dec x y) as [->|Nxy]; [intros a b out; reflexivity|].
    assert (single : forall c v, R [c] v -> forall k v', R k v' -> k <> [] /\ (In c k -> k = [c])).
    { intros c v Hc k v' Hk. split; [exact (proj1 (proj1 NI k v' Hk))|]. intros Hin. destruct (list_eq_dec N.eq_dec [c] k) as [E|E]; [congruence|].
      apply in_split in Hin as (l1 & l2 & ->).
      destruct (proj1 (proj2 NI) [c] v _ v' Hc Hk E (l1 ++ c :: l2) (length l1) 0) as [Q|Q].
      - exists l1, l2. split; reflexivity.
      - exists [], []. split; [rewrite app_nil_r; reflexivity|reflexivity].
      - cbn in Q. lia.
      - rewrite app_length in Q. cbn in Q. lia. }
    assert (free : forall c k v, R k v -> In c v -> forall k' v', R k' v' -> k' <> [] /\ (In c k' -> k' = [c])).
    { intros c k v Hr Hc k' v' Hr'. split; [exact (proj1 (proj1 NI k' v' Hr'))|]. intros Hin. destruct (proj2 (proj2 NI) k v k' v' c Hr Hr' Hc Hin). }
    assert (K : (forall k v, R k v -> k <> [] /\ (In x k -> k = [x])) /\ (forall k v, R k v -> k <> [] /\ (In y k -> k = [y]))).
    { destruct (replaced_one R x t X) as [HX|[EX HX]], (replaced_one R y t Y) as [HY|[EY HY]].
      - split; eapply single; eassumption.
      - rewrite EY in HX. split; [eapply single; eassumption|]. exact (free y _ _ HX (or_introl eq_refl)).
      - rewrite EX in HY. split; [|eapply single; eassumption]. exact (free x _ _ HY (or_introl eq_refl)).
      - destruct Nxy. congruence. }
    destruct K as [Kx Ky]. intros a b out. rewrite !D. destruct (T a) as (A & HA). destruct (T b) as (B & HB).
    pose proof (replaced_split R x t b B Kx X HB a A HA) as Rx. pose proof (replaced_split R y t b B Ky Y HB a A HA) as Ry.
    split; intros H; [rewrite (F _ _ _ H Rx)|rewrite (F _ _ _ H Ry)]; assumption.
Qed.
Print Assumptions C86_ligatures.

(** Neologdn: the characters that become the same, and the tildes. *)
Definition alike (c d : char) : Prop := c = d \/ (In c tilde_variants /\ In d tilde_variants).
Lemma tilde_facts c : In c tilde_variants -> c <> CHOONPU /\ c <> SPACE /\ is_ascii_alphanumeric c = false /\ not_tilde c = false.
Proof. intros H. cbn in H. destruct H as [<-|[<-|[<-|[<-|[<-|[<-|[]]]]]]]; repeat split; try discriminate. Qed.
Lemma alike_facts c d : alike c d -> N.eqb CHOONPU c = N.eqb CHOONPU d /\ N.eqb c SPACE = N.eqb d SPACE /\
  is_ascii_alphanumeric c = is_ascii_alphanumeric d /\ (c = d \/ (not_tilde c = false /\ not_tilde d = false)).
Proof.
  intros [->|[A B]]; [repeat split; left; reflexivity|]. apply tilde_facts in A as (A1 & A2 & A3 & A4). apply tilde_facts in B as (B1 & B2 & B3 & B4).
  repeat split; try congruence; [| |right; auto].
  - destruct (N.eqb_spec CHOONPU c), (N.eqb_spec CHOONPU d); congruence.
  - destruct (N.eqb_spec c SPACE), (N.eqb_spec d SPACE); congruence.
Qed.
Lemma red_alike s s' : Forall2 alike s s' -> forall b, Forall2 alike (red_rec CHOONPU b s) (red_rec CHOONPU b s').
Proof.
  induction 1 as [|c d s s' H _ IH]; intros b; [constructor|]. cbn [red_rec]. destruct (alike_facts c d H) as (E & _). rewrite E.
  destruct (N.eqb CHOONPU d); [destruct b; [apply IH|constructor; [exact H|apply IH]]|constructor; [exact H|apply IH]].
Qed.
Lemma dot_alike s s' : Forall2 alike s s' -> forall p p' b, is_ascii_alphanumeric p = is_ascii_alphanumeric p' ->
  Forall2 alike (dot_rec p b s) (dot_rec p' b s').
Proof.
  induction 1 as [|c d s s' H _ IH]; intros p p' b Hp; [constructor|]. cbn [dot_rec]. destruct (alike_facts c d H) as (_ & E & E2 & _). rewrite E.
  destruct (N.eqb d SPACE); [rewrite Hp; apply IH, E2|]. rewrite E2.
  assert (T : Forall2 alike (c :: dot_rec c false s) (d :: dot_rec d false s')) by (constructor; [exact H|apply IH, E2]).
  destruct b; [destruct (is_ascii_alphanumeric d)|]; cbn [app]; try exact T. constructor; [left; reflexivity|exact T].
Qed.
Lemma filter_alike s s' : Forall2 alike s s' -> filter not_tilde s = filter not_tilde s'.
Proof.
  induction 1 as [|c d s s' H _ IH]; [reflexivity|]. cbn [filter]. destruct (alike_facts c d H) as (_ & _ & _ & [->|[-> ->]]); [|exact IH].
  rewrite IH. reflexivity.
Qed.
Lemma neo_alike s s' : Forall2 alike (neo_conv_text s) (neo_conv_text s') -> neo_text s = neo_text s'.
Proof.
  intros H. unfold neo_text, neo_tilde. f_equal. rewrite !tilde_filter. apply filter_alike. unfold neo_pre. rewrite !dot_modify_rec.
  apply dot_alike; [|reflexivity]. unfold red_modify. rewrite !red_loop_rec. cbn [app]. apply red_alike, H.
Qed.
Definition neo_rest (w : str) : str := lig_modify o_id neologdn_lig (elim_modify (elim_from_chars TILDES) (dot_modify (red_modify CHOONPU w))).
Lemma neo_rest_eq s : neo_text s = neo_rest (neo_conv_text s).
Proof. reflexivity. Qed.
Lemma space_tilde u : In u tilde_variants -> neo_rest [97; space; 97]%N <> neo_rest [97; u; 97]%N.
Proof. intros H. cbn in H. destruct H as [<-|[<-|[<-|[<-|[<-|[<-|[]]]]]]]; vm_compute; discriminate. Qed.
Opaque neo_rest neo_text.
Theorem C86_neologdn : forall o ch, chanoma_neologdn o = Ok ch -> forall x y,
  interchangeable ch x y <-> exists t u, becomes neologdn_rel x t /\ becomes neologdn_rel y u /\ alike t u.
Proof.
  intros o ch H x y. rewrite chanoma_neologdn_eq in H. apply Ok_inj in H. rewrite <- H. clear o ch H.
  assert (D : forall s out, result [MNeo NEO] s out <-> out = neo_text s).
  { intros s out. unfold result. split; [intros (o & E); rewrite normalize_neo in E; apply Ok_inj in E; congruence|].
    intros ->. exists no_order. apply normalize_neo. }
  assert (B : forall c t, becomes neologdn_rel c t <-> t = conv1 (neo_conv NEO) c) by (intros; apply becomes_conv1, NEO_get).
  assert (E : forall x y, alike (conv1 (neo_conv NEO) x) (conv1 (neo_conv NEO) y) -> forall a b, neo_text (a ++ [x] ++ b) = neo_text (a ++ [y] ++ b)).
  { intros u v A a b. apply neo_alike. unfold neo_conv_text. rewrite !map_app. cbn [map].
    apply Forall2_app; [apply Forall2_same; intros z; left; reflexivity|]. constructor; [exact A|apply Forall2_same; intros z; left; reflexivity]. }
  split.
  - intros I. exists (conv1 (neo_conv NEO) x), (conv1 (neo_conv NEO) y). split; [apply B; reflexivity|]. split; [apply B; reflexivity|].
    assert (I' : forall a b, neo_text (a ++ [x] ++ b) = neo_text (a ++ [y] ++ b)) by (intros a b; apply D, I, D; reflexivity). clear I.
    assert (X : becomes neologdn_rel x (conv1 (neo_conv NEO) x)) by (apply B; reflexivity).
    assert (Y : becomes neologdn_rel y (conv1 (neo_conv NEO) y)) by (apply B; reflexivity).
    pose proof (I' [] []) as S1. cbn [app] in S1. rewrite (neo_single _ _ X), (neo_single _ _ Y) in S1.
    pose proof (I' [97%N] [97%N]) as S2. rewrite !neo_rest_eq in S2. cbn [app] in S2. unfold neo_conv_text in S2. cbn [map] in S2.
    change (conv1 (neo_conv NEO) 97%N) with 97%N in S2.
    revert X Y S1 S2. generalize (conv1 (neo_conv NEO) x), (conv1 (neo_conv NEO) y). intros t u _ _ S1 S2.
    assert (T : forall c, existsb (N.eqb c) tilde_variants = true -> In c tilde_variants).
    { intros c H. apply existsb_exists in H as (d & Hd & Q). apply N.eqb_eq in Q. congruence. }
    destruct (N.eqb_spec t space) as [Ht|Ht]; destruct (N.eqb_spec u space) as [Hu|Hu]; cbn [orb] in S1.
    + left. rewrite Ht, Hu. reflexivity.
    + subst t. destruct (existsb (N.eqb u) tilde_variants) eqn:Q; [|discriminate S1]. exfalso. exact (space_tilde u (T _ Q) S2).
    + subst u. destruct (existsb (N.eqb t) tilde_variants) eqn:Q; [|discriminate S1]. exfalso. exact (space_tilde t (T _ Q) (eq_sym S2)).
    + destruct (existsb (N.eqb t) tilde_variants) eqn:Q, (existsb (N.eqb u) tilde_variants) eqn:Q'; try discriminate S1.
      * right. auto.
      * left. injection S1 as S1. exact S1.
  - intros (t & u & X & Y & A) a b out. apply B in X, Y. subst t u. rewrite !D, (E x y A). reflexivity.
Qed.
Print Assumptions C86_neologdn.
(** The dashes, for instance, but not the dashes and the hyphens. *)
Example C86_case : exists ch, chanoma_neologdn no_order = Ok ch /\ interchangeable ch 0x2014%N 0xFF70%N /\ interchangeable ch 0x301C%N 0x3030%N /\
  ~ interchangeable ch 0x2014%N 0x2212%N /\ ~ interchangeable ch 0x20%N 0x7E%N.
Proof.
  exists [MNeo NEO]. assert (H : chanoma_neologdn no_order = Ok [MNeo NEO]) by apply chanoma_neologdn_eq. split; [exact H|].
  rewrite !(C86_neologdn _ _ H).
  split; [exists prolonged_mark, prolonged_mark; repeat split; [left; apply nr_dash; cbn; auto..|left; reflexivity]|].
  split.
  - exists 0x7E%N, 0x3030%N. split; [left; apply nr_preset; [discriminate|apply pr_tilde]|]. split; [|right; cbn; auto 10].
    right. split; [reflexivity|]. intros u R. apply NEO_get in R. vm_compute in R. discriminate.
  - assert (B : forall c t, becomes neologdn_rel c t <-> t = conv1 (neo_conv NEO) c) by (intros; apply becomes_conv1, NEO_get).
    clear H. split; intros (t & u & X & Y & A); apply B in X; apply B in Y; clear B; vm_compute in X, Y; subst t u.
    + destruct A as [A|[A _]]; [discriminate A|]. repeat destruct A as [A|A]; try discriminate A. exact A.
    + destruct A as [A|[A _]]; [discriminate A|]. repeat destruct A as [A|A]; try discriminate A. exact A.
Qed.
