(** Facts for C95: what a modifier makes of a part of a text, against what it makes of the whole. *)
From Verif Require Import Base BaseFacts Utf8 StrOps Position Converter Eliminator Reducer Dotted Ligature TrimMod Neologdn ModifierKind
  ChanomaModel Spec NeoSpec CharsetFacts ConverterFacts SimpleFacts LigFacts TableFacts NeoFacts NeoProps NeoMore
  ConverterProps SimpleProps PropsConverter PropsLig PropsNeo PropsPipeline PropsNeoMore CommProps SearchSpec.

(** The image of a beginning begins the image; the image of an end ends it. *)
Definition forward (f : str -> str) : Prop :=
  (forall q b, exists B, f (q ++ b) = f q ++ B) /\ (forall a q, exists A, f (a ++ q) = A ++ f q).
(** Cutting the image in two corresponds to cutting the text in two. *)
Definition cuttable (f : str -> str) : Prop :=
  forall s x y, f s = x ++ y -> exists u v, s = u ++ v /\ f u = x /\ f v = y.

Lemma forward_comp f g : forward f -> forward g -> forward (fun s => f (g s)).
Proof.
  intros [F1 F2] [G1 G2]. split.
  - intros q b. destruct (G1 q b) as (B & ->). apply F1.
  - intros a q. destruct (G2 a q) as (A & ->). apply F2.
Qed.
Lemma forward_inside f : forward f -> forall a q b, exists A B, f (a ++ q ++ b) = A ++ f q ++ B.
Proof. intros [F1 F2] a q b. destruct (F2 a (q ++ b)) as (A & ->). destruct (F1 q b) as (B & ->). eauto. Qed.
Lemma cuttable_comp f g : cuttable f -> cuttable g -> cuttable (fun s => f (g s)).
Proof.
  intros F G s x y E. apply F in E as (u & v & E & <- & <-). apply G in E as (u' & v' & -> & <- & <-). eauto.
Qed.
Lemma cuttable_inside f : cuttable f -> forall s A r B, f s = A ++ r ++ B -> exists a q b, s = a ++ q ++ b /\ f q = r.
Proof.
  intros F s A r B E. apply F in E as (u & v & -> & _ & E). apply F in E as (q & b & -> & E & _). eauto.
Qed.
Lemma forward_id : forward (fun s => s).
Proof. split; eauto. Qed.
Lemma cuttable_id : cuttable (fun s => s).
Proof. intros s x y ->. eauto. Qed.

(** ** Conversions and eliminations *)
Lemma forward_map (g : char -> char) : forward (map g).
Proof. split; intros; rewrite map_app; eauto. Qed.
Lemma cuttable_map (g : char -> char) : cuttable (map g).
Proof. intros s x y E. apply map_eq_app in E as (u & v & -> & <- & <-). eauto. Qed.
Lemma forward_filter (g : char -> bool) : forward (filter g).
Proof. split; intros; rewrite filter_app; eauto. Qed.
Lemma cuttable_filter (g : char -> bool) : cuttable (filter g).
Proof.
  intros s. induction s as [|c s IH]; intros x y E.
  - symmetry in E. apply app_eq_nil in E as [-> ->]. exists [], []. auto.
  - cbn [filter] in E. destruct (g c) eqn:G.
    + destruct x as [|d x].
      * exists [], (c :: s). cbn [filter]. rewrite G. auto.
      * cbn [app] in E. injection E as -> E. apply IH in E as (u & v & -> & <- & <-).
        exists (d :: u), v. cbn [filter]. rewrite G. auto.
    + apply IH in E as (u & v & -> & <- & <-). exists (c :: u), v. cbn [filter]. rewrite G. auto.
Qed.

(** ** Reductions *)
Lemma red_app k q : forall b r, exists c, red_rec k b (q ++ r) = red_rec k b q ++ red_rec k c r /\
  (c = true -> (exists A, red_rec k b q = A ++ [k]) \/ (b = true /\ red_rec k b q = [])).
Proof.
  induction q as [|x q IH]; intros b r; [exists b; split; [reflexivity|]; intros ->; right; auto|]. cbn [app red_rec].
  destruct (N.eqb_spec k x) as [<-|D].
  - destruct (IH true r) as (c & E & H). exists c. destruct b; rewrite E.
    + split; [reflexivity|exact H].
    + split; [reflexivity|]. intros C. left. destruct (H C) as [(A & ->)|[_ ->]]; [exists (k :: A)|exists []]; reflexivity.
  - destruct (IH false r) as (c & E & H). exists c. rewrite E. split; [reflexivity|]. intros C. left.
    destruct (H C) as [(A & ->)|[F _]]; [exists (x :: A); reflexivity|discriminate].
Qed.
Lemma red_flag k r : red_rec k true r = red_rec k false r \/ red_rec k false r = k :: red_rec k true r.
Proof.
  destruct r as [|x r]; [left; reflexivity|]. cbn [red_rec]. destruct (N.eqb_spec k x) as [<-|D]; [right|left]; reflexivity.
Qed.
Lemma forward_red k : forward (red_rec k false).
Proof.
  split.
  - intros q b. destruct (red_app k q false b) as (c & E & _). eauto.
  - intros a q. destruct (red_app k a false q) as ([|] & E & H); rewrite E; [|eauto].
    destruct (red_flag k q) as [->|F]; [eauto|]. destruct (H eq_refl) as [(A & ->)|[? _]]; [|discriminate].
    exists A. rewrite F, <- app_assoc. reflexivity.
Qed.
(** Cut so that the second part does not begin inside a run. *)
Lemma red_cut k s : forall b x y, red_rec k b s = x ++ y -> exists u v, s = u ++ v /\ red_rec k b u = x /\
  ((u = [] /\ red_rec k b v = y) \/ red_rec k false v = y).
Proof.
  induction s as [|c s IH]; intros b x y E.
  - symmetry in E. apply app_eq_nil in E as [-> ->]. exists [], []. auto.
  - destruct x as [|d x].
    + cbn [app] in E. exists [], (c :: s). auto.
    + cbn [red_rec] in E. destruct (N.eqb_spec k c) as [<-|D].
      * destruct b.
        -- destruct (IH _ _ _ E) as (u & v & -> & E1 & E2). exists (k :: u), v. cbn [red_rec]. rewrite N.eqb_refl.
           split; [reflexivity|]. split; [exact E1|]. right. destruct E2 as [[-> E2]|E2]; [discriminate|exact E2].
        -- cbn [app] in E. injection E as <- E. destruct (IH _ _ _ E) as (u & v & -> & <- & E2).
           destruct E2 as [[-> E2]|E2]; [|exists (k :: u), v; cbn [red_rec]; rewrite N.eqb_refl; auto].
           assert (R : forall w, exists u' v', w = u' ++ v' /\ red_rec k true u' = [] /\ red_rec k false v' = red_rec k true w).
           { induction w as [|z w (u' & v' & -> & F1 & F2)]; [exists [], []; auto|]. destruct (N.eq_dec k z) as [<-|Dz].
             - exists (k :: u'), v'. cbn [red_rec app]. rewrite N.eqb_refl. auto.
             - exists [], (z :: u' ++ v'). cbn [red_rec app]. destruct (N.eqb_spec k z); [contradiction|auto]. }
           destruct (R v) as (u' & v' & -> & F1 & F2). exists (k :: u'), v'. cbn [red_rec app]. rewrite N.eqb_refl, F1.
           split; [reflexivity|]. split; [reflexivity|]. right. congruence.
      * cbn [app] in E. injection E as <- E. destruct (IH _ _ _ E) as (u & v & -> & <- & E2).
        exists (c :: u), v. cbn [red_rec]. destruct (N.eqb_spec k c); [contradiction|]. split; [reflexivity|]. split; [reflexivity|].
        right. destruct E2 as [[_ E2]|E2]; exact E2.
Qed.
Lemma cuttable_red k : cuttable (red_rec k false).
Proof.
  intros s x y E. destruct (red_cut k s _ _ _ E) as (u & v & -> & <- & E2). exists u, v.
  split; [reflexivity|]. split; [reflexivity|]. destruct E2 as [[_ E2]|E2]; exact E2.
Qed.

(** ** Dotted spaces *)
Lemma dot_forward q : forall p sp b, exists p' sp', dot_rec p sp (q ++ b) = dot_rec p sp q ++ dot_rec p' sp' b.
Proof.
  induction q as [|c q IH]; intros p sp b; [exists p, sp; reflexivity|]. cbn [app dot_rec]. destruct (N.eqb c SPACE); [apply IH|].
  destruct (IH c false b) as (p' & sp' & ->). exists p', sp'. rewrite <- app_assoc. reflexivity.
Qed.
Lemma dot_any q : forall p sp, exists A, dot_rec p sp q = A ++ dot_rec SPACE false q.
Proof.
  induction q as [|c q IH]; intros p sp; [exists []; reflexivity|]. cbn [dot_rec]. destruct (N.eqb_spec c SPACE) as [->|D].
  - destruct (IH SPACE (if is_ascii_alphanumeric p then true else sp)) as (A & ->). exists A. reflexivity.
  - eexists. reflexivity.
Qed.
Lemma forward_dot : forward (dot_rec SPACE false).
Proof.
  split.
  - intros q b. destruct (dot_forward q SPACE false b) as (p & sp & E). eauto.
  - intros a q. destruct (dot_forward a SPACE false q) as (p & sp & ->). destruct (dot_any q p sp) as (A & ->).
    exists (dot_rec SPACE false a ++ A). apply app_assoc.
Qed.

(** ** Trims *)
Lemma trim_start_app c A x o : x <> c -> trim_start_matches c (A ++ x :: o) = trim_start_matches c A ++ x :: o.
Proof.
  intros H. induction A as [|y A IH]; cbn [app trim_start_matches].
  - destruct (N.eqb_spec x c) as [E|_]; [contradiction|reflexivity].
  - destruct (N.eqb y c); [exact IH|reflexivity].
Qed.
Lemma trim_end_app' c A x o : x <> c -> trim_end_matches c (A ++ x :: o) = A ++ x :: trim_end_matches c o.
Proof.
  intros H. unfold trim_end_matches. rewrite rev_app_distr. cbn [rev]. rewrite <- app_assoc. cbn [app].
  rewrite trim_start_app by exact H. rewrite rev_app_distr. cbn [rev]. rewrite rev_involutive, <- app_assoc. reflexivity.
Qed.
Lemma snoc_case (o : str) : o = [] \/ exists o' x, o = o' ++ [x].
Proof. destruct o as [|x o] using rev_ind; eauto. Qed.
Lemma forward_trim : forward trim_modify.
Proof.
  split.
  - intros q b. destruct (trim_parts_exists q) as (n & o & m & P). rewrite (proj1 (trim_parts_eq _ _ _ _ P)).
    destruct P as (-> & H1 & H2 & _). destruct (snoc_case o) as [->|(o' & x & ->)]; [eexists; reflexivity|].
    rewrite rev_app_distr in H2. cbn in H2. assert (Hx : x <> SPACE) by (intros ->; apply H2; reflexivity).
    unfold trim_modify, trim_matches. rewrite <- !app_assoc, trim_start_repeat.
    + cbn [app]. rewrite trim_end_app' by exact Hx. exists (trim_end_matches SPACE (repeat space m ++ b)). rewrite <- app_assoc. reflexivity.
    + destruct o' as [|y o']; cbn [app hd_error] in *; [congruence|exact H1].
  - intros a q. destruct (trim_parts_exists q) as (n & o & m & P). rewrite (proj1 (trim_parts_eq _ _ _ _ P)).
    destruct P as (-> & H1 & H2 & _). destruct o as [|x o]; [eexists; rewrite app_nil_r; reflexivity|].
    assert (Hx : x <> SPACE) by (intros ->; apply H1; reflexivity).
    unfold trim_modify, trim_matches. exists (trim_start_matches SPACE (a ++ repeat space n)).
    change ((x :: o) ++ repeat space m) with (x :: (o ++ repeat space m)). rewrite app_assoc, trim_start_app by exact Hx.
    change (x :: o ++ repeat space m) with ((x :: o) ++ repeat SPACE m). rewrite app_assoc. apply trim_end_repeat.
    rewrite rev_app_distr. destruct (rev (x :: o)) as [|y r] eqn:E; [|exact H2].
    apply (f_equal (@length _)) in E. rewrite rev_length in E. discriminate.
Qed.

(** ** A last trim or removal of dotted spaces *)
Definition last_stage (f : str -> str) : Prop :=
  forall s q A B, f s = A ++ f q ++ B -> exists a q' b, s = a ++ q' ++ b /\ f q' = f q.
Lemma last_trim : last_stage trim_modify.
Proof.
  intros s q A B E. destruct (trim_modify_trimmed s) as (_ & _ & n & m & Es). rewrite E in Es.
  exists (repeat space n ++ A), (trim_modify q), (B ++ repeat space m). split.
  - rewrite Es, <- !app_assoc. reflexivity.
  - apply trimmed_unique with (trim_modify q); [apply trim_modify_trimmed|]. destruct (trim_modify_trimmed q) as (H1 & H2 & _).
    split; [exact H1|]. split; [exact H2|]. exists 0, 0. cbn. symmetry. apply app_nil_r.
Qed.
(** A character other than a space in the result, with what follows it and what leads to it. *)
Lemma undotted_at p s out : undotted p s out -> forall A x R, out = A ++ x :: R -> x <> space ->
  exists u v, s = u ++ x :: v /\ undotted (Some x) v R /\ undotted p (u ++ [x]) (A ++ [x]).
Proof.
  induction 1 as [p|p y s o Hy H IH|p n s o Hn Hs H1 H2 H IH|p n s o Hn Hs H1 H IH]; intros A x R E Hx.
  - symmetry in E. apply app_eq_nil in E as [_ E]. discriminate.
  - destruct A as [|z A]; cbn [app] in E; injection E as <- E.
    + subst o. exists [], s. split; [reflexivity|]. split; [exact H|]. cbn. constructor; [exact Hy|constructor].
    + destruct (IH _ _ _ E Hx) as (u & v & -> & V & U). exists (y :: u), v. split; [reflexivity|]. split; [exact V|].
      cbn [app]. constructor; [exact Hy|exact U].
  - destruct A as [|z A]; cbn [app] in E; injection E as <- E; [contradiction|].
    destruct (IH _ _ _ E Hx) as (u & v & -> & V & U). exists (repeat space n ++ u), v. rewrite <- !app_assoc.
    split; [reflexivity|]. split; [exact V|]. cbn [app].
    assert (HE : hd_error (u ++ [x]) = hd_error (u ++ x :: v)) by (destruct u; reflexivity).
    constructor; rewrite ?HE; try assumption.
  - destruct (IH _ _ _ E Hx) as (u & v & -> & V & U). exists (repeat space n ++ u), v. rewrite <- !app_assoc.
    split; [reflexivity|]. split; [exact V|].
    assert (HE : hd_error (u ++ [x]) = hd_error (u ++ x :: v)) by (destruct u; reflexivity).
    apply und_drop; rewrite ?HE; assumption.
Qed.
Lemma dot_undotted s : undotted None s (dot_rec SPACE false s).
Proof. apply (dot_rec_undotted None). Qed.
(** A part of the result that neither begins nor ends with a space is the result of a part. *)
Lemma dot_part s A r B : dot_rec SPACE false s = A ++ r ++ B -> hd_error r <> Some space -> hd_error (rev r) <> Some space ->
  exists a q b, s = a ++ q ++ b /\ dot_rec SPACE false q = r.
Proof.
  intros E H1 H2. destruct r as [|x r]; [exists [], [], s; split; reflexivity|].
  assert (Hx : x <> space) by (intros ->; apply H1; reflexivity).
  cbn [app] in E. destruct (undotted_at _ _ _ (dot_undotted s) A x (r ++ B) E Hx) as (u & v & -> & V & _).
  destruct (snoc_case r) as [->|(r' & y & ->)].
  - exists u, [x], v. split; [reflexivity|]. cbn [dot_rec]. destruct (N.eqb_spec x SPACE); [contradiction|reflexivity].
  - cbn [rev] in H2. rewrite rev_app_distr in H2. cbn in H2.
    assert (Hy : y <> space) by (intros ->; apply H2; reflexivity).
    destruct (undotted_at _ _ _ V r' y B) as (u' & v' & -> & _ & U); [rewrite <- app_assoc; reflexivity|exact Hy|].
    exists u, (x :: u' ++ [y]), v'. split; [rewrite <- !app_comm_cons, <- !app_assoc; reflexivity|].
    symmetry. apply (undotted_dot_rec None). constructor; assumption.
Qed.
Lemma spaces_between_ends r : spaces_between r -> hd_error r <> Some space /\ hd_error (rev r) <> Some space.
Proof.
  intros H. split.
  - destruct r as [|x r]; [discriminate|]. cbn. intros E. injection E as ->. destruct (H [] r eq_refl) as [(c & E & _) _]. discriminate.
  - destruct (snoc_case r) as [->|(r' & x & ->)]; [discriminate|]. rewrite rev_app_distr. cbn. intros E. injection E as ->.
    destruct (H r' [] eq_refl) as [_ (c & E & _)]. discriminate.
Qed.

(** ** Neologdn *)
Definition neo_mid (s : str) : str :=
  filter not_tilde (dot_rec SPACE false (red_rec CHOONPU false (map (conv1 (neo_conv NEO)) s))).
Lemma neo_tilde_mid s : neo_tilde s = neo_mid s.
Proof. unfold neo_tilde, neo_pre, neo_mid, neo_conv_text. rewrite tilde_filter, dot_modify_rec, red_modify_rec. reflexivity. Qed.
Lemma composition_det k v k' v' s : composition k v -> composition k' v' -> prefix_of k s -> prefix_of k' s -> k = k' /\ v = v'.
Proof.
  intros H H'. apply rules_composition in H, H'. apply (rules_det neologdn_lig lig_nodup lig_non_interfering); assumption.
Qed.
Lemma neo_result_mid s out : neologdn_result s out <-> replaced composition (neo_mid s) out.
Proof.
  rewrite <- neo_text_result. unfold neo_text. rewrite neo_tilde_mid.
  apply lig_comp.
Qed.
Lemma forward_mid : forward neo_mid.
Proof.
  unfold neo_mid. apply (forward_comp (filter not_tilde)); [apply forward_filter|].
  apply (forward_comp (dot_rec SPACE false)); [apply forward_dot|].
  apply (forward_comp (red_rec CHOONPU false)); [apply forward_red|apply forward_map].
Qed.
Lemma replaced_join a a' b b' : (forall c, hd_error b = Some c -> ~ sound_mark c) -> replaced composition a a' -> replaced composition b b' ->
  replaced composition (a ++ b) (a' ++ b').
Proof.
  intros Hb Ha Hr. induction Ha as [|k v s o Hk HR _ IH|y s o H _ IH].
  - exact Hr.
  - rewrite <- !app_assoc. apply rep_hit; assumption.
  - cbn. apply rep_miss; [|exact IH]. intros k v C (r & E). apply (H k v C).
    destruct C as (a & m & t & -> & -> & C). destruct s as [|z s]; cbn in E.
    + injection E as -> E. destruct b as [|z b]; [discriminate|]. cbn in E. injection E as -> _. exfalso. apply (Hb m eq_refl).
      destruct C as [(-> & _)|(-> & _)]; [left|right]; reflexivity.
    + injection E as -> -> _. exists s. reflexivity.
Qed.
(** Values of the composition are single characters: a cut of the result is a cut of the text. *)
Lemma replaced_cut s out : replaced composition s out -> forall x y, out = x ++ y ->
  exists u v, s = u ++ v /\ replaced composition u x /\ replaced composition v y.
Proof.
  induction 1 as [|k v s o Hk HR H IH|c s o Hm H IH]; intros x y E.
  - symmetry in E. apply app_eq_nil in E as [-> ->]. exists [], []. repeat split; constructor.
  - destruct HR as (a & m & t & -> & -> & C). destruct x as [|d x]; cbn [app] in E.
    + exists [], ([a; m] ++ s). split; [reflexivity|]. split; [constructor|]. subst y. apply (rep_hit _ [a; m] [t]); [discriminate| |exact H].
      exists a, m, t. auto.
    + injection E as <- E. destruct (IH _ _ E) as (u & v & -> & U & V). exists ([a; m] ++ u), v. split; [apply app_assoc|].
      split; [|exact V]. apply (rep_hit _ [a; m] [t]); [discriminate| |exact U]. exists a, m, t. auto.
  - destruct x as [|d x]; cbn [app] in E.
    + exists [], (c :: s). split; [reflexivity|]. split; [constructor|]. subst y. apply rep_miss; assumption.
    + injection E as <- E. destruct (IH _ _ E) as (u & v & -> & U & V). exists (c :: u), v. split; [reflexivity|].
      split; [|exact V]. apply rep_miss; [|exact U]. intros k w C (r & Er). apply (Hm k w C). exists (r ++ v).
      rewrite app_assoc, <- Er. reflexivity.
Qed.
(** A character that alone gives one character. *)
Lemma neo_one c t : neologdn_result [c] [t] -> conv1 (neo_conv NEO) c = t /\ t <> space /\ not_tilde t = true.
Proof.
  intros H. apply neo_result_mid in H. unfold neo_mid in H. cbn [map] in H.
  set (u := conv1 (neo_conv NEO) c) in *.
  assert (E : red_rec CHOONPU false [u] = [u]) by (cbn [red_rec]; destruct (N.eqb CHOONPU u); reflexivity).
  rewrite E in H. cbn [dot_rec] in H. destruct (N.eqb_spec u SPACE) as [_|D]; [discriminate (replaced_nil_inv _ _ H)|].
  cbn [app filter] in H. destruct (not_tilde u) eqn:T; [|discriminate (replaced_nil_inv _ _ H)].
  assert (R : replaced composition [u] [u]).
  { apply rep_miss; [|constructor]. intros k v (a & m & t' & -> & _) (r & Er). discriminate. }
  pose proof (replaced_det _ composition_det _ _ _ H R) as Et. injection Et as ->. auto.
Qed.
Lemma mid_head c t q b : neologdn_result [c] [t] -> t <> prolonged_mark ->
  exists B, neo_mid (q ++ c :: b) = neo_mid q ++ B /\ (hd_error B = Some space \/ hd_error B = Some t).
Proof.
  intros H Hp. destruct (neo_one _ _ H) as (E & Hs & Ht). unfold neo_mid. rewrite map_app. cbn [map]. rewrite E.
  destruct (red_app CHOONPU (map (conv1 (neo_conv NEO)) q) false (t :: map (conv1 (neo_conv NEO)) b)) as (f & -> & _).
  cbn [red_rec]. destruct (N.eqb_spec CHOONPU t) as [D|_]; [exfalso; apply Hp; rewrite <- D; reflexivity|].
  match goal with |- context [dot_rec SPACE false (?x ++ ?y)] => destruct (dot_forward x SPACE false y) as (p & sp & ->) end.
  rewrite filter_app. eexists. split; [reflexivity|]. cbn [dot_rec]. destruct (N.eqb_spec t SPACE) as [|_]; [contradiction|].
  destruct (if sp then if is_ascii_alphanumeric t then [SPACE] else [] else []) as [|z l] eqn:L.
  - cbn [app filter]. rewrite Ht. right. reflexivity.
  - assert (z = SPACE) as -> by (destruct sp; [destruct (is_ascii_alphanumeric t)|]; congruence).
    left. reflexivity.
Qed.
Lemma mid_nil : neo_mid [] = [].
Proof. reflexivity. Qed.
Lemma space_no_mark : ~ sound_mark space.
Proof. intros [H|H]; discriminate. Qed.
Lemma start_after q b : ordinary_start b -> exists B, neo_mid (q ++ b) = neo_mid q ++ B /\ forall c, hd_error B = Some c -> ~ sound_mark c.
Proof.
  intros H. destruct b as [|c b].
  - exists []. rewrite !app_nil_r. split; [reflexivity|discriminate].
  - destruct (H c eq_refl) as (t & R & P & M). destruct (mid_head c t q b R P) as (B & E & Hd). exists B. split; [exact E|].
    intros d Ed. destruct Hd as [Hd|Hd]; rewrite Hd in Ed; injection Ed as <-; [exact space_no_mark|exact M].
Qed.
Lemma neo_found a q b x y : ordinary_start q -> ordinary_start b -> neologdn_result q x -> neologdn_result (a ++ q ++ b) y ->
  exists A B, y = A ++ x ++ B /\ (a = [] -> A = []) /\ (b = [] -> B = []).
Proof.
  intros Hq Hb X Y. apply neo_result_mid in X, Y.
  destruct (start_after q b Hb) as (B & EB & HB).
  assert (EA : exists A, neo_mid (a ++ q ++ b) = A ++ neo_mid (q ++ b) /\ (a = [] -> A = [])).
  { destruct a as [|c a]; [exists []; auto|]. destruct (proj2 forward_mid (c :: a) (q ++ b)) as (A & E). exists A. split; [exact E|discriminate]. }
  destruct EA as (A & EA & NA).
  assert (NB : b = [] -> B = []).
  { intros ->. rewrite app_nil_r in EB. symmetry in EB. rewrite <- (app_nil_r (neo_mid q)) in EB at 2. apply app_inv_head in EB. exact EB. }
  assert (T : forall s, exists o, replaced composition s o).
  { intros s. eexists. apply lig_comp. reflexivity. }
  destruct (T A) as (A' & RA), (T B) as (B' & RB).
  assert (H0 : neo_mid q <> [] -> forall c, hd_error (neo_mid q ++ B) = Some c -> ~ sound_mark c).
  { intros Ne c Ec. destruct (start_after [] q Hq) as (Q & EQ & HQ). cbn [app] in EQ. rewrite mid_nil in EQ. cbn [app] in EQ. subst Q.
    apply HQ. destruct (neo_mid q) as [|z r]; [congruence|exact Ec]. }
  rewrite EA, EB in Y. destruct (neo_mid q) as [|z r] eqn:Eq.
  - assert (x = []) as -> by exact (replaced_nil_inv _ _ X).
    cbn [app] in *. destruct a as [|c a].
    + exists [], y. split; [reflexivity|]. split; [auto|]. intros E. rewrite (NA eq_refl), (NB E) in Y. exact (replaced_nil_inv _ _ Y).
    + exists y, []. rewrite app_nil_r. split; [reflexivity|]. split; [discriminate|auto].
  - exists A', B'. split.
    + apply (replaced_det _ composition_det _ _ _ Y). apply replaced_join; [apply H0; discriminate|exact RA|].
      apply replaced_join; assumption.
    + split; intros E; [rewrite (NA E) in RA|rewrite (NB E) in RB]; eapply replaced_nil_inv; eassumption.
Qed.
Lemma composes_space m t : ~ composes space m t.
Proof.
  intros C. assert (H : composition [space; m] [t]) by (exists space, m, t; auto).
  destruct (composition_facts _ _ H) as (a & m' & t' & E & _ & F). injection E as <- <-. exact (ef_a_space _ _ _ F eq_refl).
Qed.
Lemma neo_back q s x y A B : neologdn_result q x -> neologdn_result s y -> y = A ++ x ++ B ->
  exists a q' b, s = a ++ q' ++ b /\ neologdn_result q' x.
Proof.
  intros X Y ->. assert (Hx : spaces_between x).
  { apply neo_text_result in X. rewrite <- X. apply neo_shape. }
  apply neo_result_mid in Y.
  destruct (replaced_cut _ _ Y _ _ eq_refl) as (u & v & E & _ & V). destruct (replaced_cut _ _ V _ _ eq_refl) as (w & v' & -> & W & _).
  unfold neo_mid in E.
  destruct (cuttable_inside _ (cuttable_filter not_tilde) _ _ _ _ E) as (a & r & b & Er & Fr).
  destruct (spaces_between_ends x Hx) as [Hx1 Hx2].
  assert (H1 : hd_error r <> Some space).
  { intros H. apply Hx1. destruct r as [|z r]; [discriminate|]. cbn in H. injection H as ->. cbn [filter] in Fr.
    change (not_tilde space) with true in Fr. cbn [app] in Fr. subst w. inversion W as [|k v0 s0 o0 Hk HR H0 E0|c0 s0 o0 Hm H0 E0].
    - destruct HR as (a0 & m & t & -> & _ & C). cbn [app] in E0. injection E0 as -> _. destruct (composes_space _ _ C).
    - reflexivity. }
  assert (H2 : hd_error (rev r) <> Some space).
  { intros H. apply Hx2. destruct (snoc_case r) as [->|(r' & z & ->)]; [discriminate|]. rewrite rev_app_distr in H. cbn in H. injection H as ->.
    rewrite filter_app in Fr. change (filter not_tilde [space]) with [space] in Fr. subst w.
    assert (S1 : replaced composition [space] [space]).
    { apply rep_miss; [|constructor]. intros k v0 (a0 & m & t & -> & _) (l & El). discriminate. }
    assert (T : exists o, replaced composition (filter not_tilde r') o) by (eexists; apply lig_comp; reflexivity).
    destruct T as (o & T). pose proof (replaced_join _ _ [space] [space] ltac:(intros c Ec; injection Ec as <-; exact space_no_mark) T S1) as J.
    rewrite (replaced_det _ composition_det _ _ _ W J), rev_app_distr. reflexivity. }
  destruct (dot_part _ _ _ _ Er H1 H2) as (a1 & q1 & b1 & E1 & D1).
  destruct (cuttable_inside _ (cuttable_comp _ _ (cuttable_red CHOONPU) (cuttable_map (conv1 (neo_conv NEO)))) _ _ _ _ E1) as (a2 & q2 & b2 & -> & D2).
  exists a2, q2, b2. split; [reflexivity|]. apply neo_result_mid. unfold neo_mid. cbv beta in D2. rewrite D2, D1, Fr. exact W.
Qed.
