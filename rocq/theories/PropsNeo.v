(** Properties C23-C29: neologdn. *)
From Verif Require Import Base StrOps Position Neologdn ModifierKind ChanomaModel CharSpec Spec
  CharsetFacts SimpleFacts NeoFacts NeoProps PropsConverter.

Opaque neo_text.
Lemma Ok_inj {A} (a b : A) : Ok a = Ok b -> a = b.
Proof. congruence. Qed.
Ltac neo H := apply chanoma_neo_inv in H; subst.

(** C23 *)
Theorem C23_variants_agree : forall o ch, chanoma_neologdn o = Ok ch -> forall s, exists out,
  (forall dbg o1, normalize dbg o1 ch s = Ok out) /\
  forall o2, exists m ps, normalize_with_positions o2 ch s = Ok [Record m out ps].
Proof.
  intros o ch H s. neo H. exists (neo_text s). split; [intros; apply normalize_neo|].
  intros o2. eexists. eexists. apply normalize_with_positions_neo.
Qed.
Print Assumptions C23_variants_agree.

(** C24 *)
Theorem C24_builds : forall o, exists ch, chanoma_neologdn o = Ok ch.
Proof. intros o. rewrite chanoma_neologdn_eq. eexists. reflexivity. Qed.
Print Assumptions C24_builds.
Theorem C24_exact : forall o ch, chanoma_neologdn o = Ok ch -> forall dbg o' s out,
  normalize dbg o' ch s = Ok out <-> neologdn_result s out.
Proof.
  intros o ch H dbg o' s out. neo H. rewrite normalize_neo, <- neo_text_result. split; congruence.
Qed.
Print Assumptions C24_exact.
Theorem C24_order_independent : forall o1 o2 ch1 ch2, chanoma_neologdn o1 = Ok ch1 -> chanoma_neologdn o2 = Ok ch2 ->
  forall s, exists out, forall dbg o, normalize dbg o ch1 s = Ok out /\ normalize dbg o ch2 s = Ok out.
Proof.
  intros o1 o2 ch1 ch2 H1 H2 s. neo H1. neo H2. exists (neo_text s). intros dbg o. rewrite normalize_neo. auto.
Qed.
Print Assumptions C24_order_independent.
(** "ﾊﾟｰー ~ｶ゛ A　B" with half-width forms: half-width mark kept, U+309B composed *)
Example C24_case : exists ch, chanoma_neologdn other_order = Ok ch /\
  normalize false other_order ch [0xFF8A; 0xFF9F; 0xFF70; 0x30FC; 0x20; 0x7E; 0xFF76; 0x309B; 0x20; 0xFF21; 0x3000; 0x42]%N
  = Ok [0x30CF; 0xFF9F; 0x30FC; 0x30AC; 0x41; 0x20; 0x42]%N.
Proof. eexists. rewrite chanoma_neologdn_eq. split; [reflexivity|]. vm_compute. reflexivity. Qed.

(** C25 *)
Theorem C25_shape : forall o ch, chanoma_neologdn o = Ok ch -> forall dbg o' s out,
  normalize dbg o' ch s = Ok out -> neologdn_shape out.
Proof. intros o ch H dbg o' s out E. neo H. rewrite normalize_neo in E. apply Ok_inj in E; subst. apply neo_shape. Qed.
Print Assumptions C25_shape.

(** C26 *)
Theorem C26_second_pass_collapses : forall o ch, chanoma_neologdn o = Ok ch -> forall dbg o1 dbg' o2 s out,
  normalize dbg o1 ch s = Ok out ->
  exists out2, normalize dbg' o2 ch out = Ok out2 /\ collapsed prolonged_mark out out2.
Proof.
  intros o ch H dbg o1 dbg' o2 s out E. neo H. rewrite normalize_neo in *. apply Ok_inj in E; subst.
  eexists. split; [reflexivity|]. rewrite neo_twice. apply red_modify_spec. reflexivity.
Qed.
Print Assumptions C26_second_pass_collapses.
Theorem C26_third_pass_same : forall o ch, chanoma_neologdn o = Ok ch -> forall dbg o1 o2 o3 s out out2,
  normalize dbg o1 ch s = Ok out -> normalize dbg o2 ch out = Ok out2 -> normalize dbg o3 ch out2 = Ok out2.
Proof.
  intros o ch H dbg o1 o2 o3 s out out2 E E'. neo H. rewrite normalize_neo in *. apply Ok_inj in E; subst. apply Ok_inj in E'; subst.
  f_equal. apply neo_thrice.
Qed.
Print Assumptions C26_third_pass_same.
Theorem C26_fixpoints_exact : forall o ch, chanoma_neologdn o = Ok ch -> forall dbg o' s,
  normalize dbg o' ch s = Ok s <-> neologdn_shape s /\ no_double_mark s.
Proof. intros o ch H dbg o' s. neo H. rewrite normalize_neo, <- neo_fix. split; congruence. Qed.
Print Assumptions C26_fixpoints_exact.
Theorem C26_stable_iff : forall o ch, chanoma_neologdn o = Ok ch -> forall dbg o1 dbg' o2 s out,
  normalize dbg o1 ch s = Ok out -> (normalize dbg' o2 ch out = Ok out <-> no_double_mark out).
Proof.
  intros o ch H dbg o1 dbg' o2 s out E. rewrite (C26_fixpoints_exact o ch H).
  pose proof (C25_shape o ch H _ _ _ _ E). tauto.
Qed.
Print Assumptions C26_stable_iff.
Theorem C26_stable_without_gaps : forall o ch, chanoma_neologdn o = Ok ch -> forall dbg o1 dbg' o2 s out,
  (forall c, In c s -> c <> space /\ c <> 0x3000%N /\ ~ In c tilde_variants) ->
  normalize dbg o1 ch s = Ok out -> normalize dbg' o2 ch out = Ok out.
Proof.
  intros o ch H dbg o1 dbg' o2 s out Hs E. apply (C26_stable_iff o ch H _ _ dbg' o2 _ _ E).
  neo H. rewrite normalize_neo in E. apply Ok_inj in E; subst. apply neo_no_gap, Hs.
Qed.
Print Assumptions C26_stable_without_gaps.
Theorem C26_idempotent_refuted : exists o ch s out,
  chanoma_neologdn o = Ok ch /\ normalize false o ch s = Ok out /\ normalize false o ch out <> Ok out.
Proof.
  exists no_order, [MNeo NEO], [0x30FC; 0x7E; 0x30FC]%N, [0x30FC; 0x30FC]%N.
  rewrite chanoma_neologdn_eq. split; [reflexivity|]. split; [vm_compute; reflexivity|vm_compute; discriminate].
Qed.
Print Assumptions C26_idempotent_refuted.
Example C26_gap_case : forall c, In c [0xFF76; 0xFF70; 0x2014]%N -> c <> space /\ c <> 0x3000%N /\ ~ In c tilde_variants.
Proof. intros c [<-|[<-|[<-|[]]]]; repeat split; try discriminate; cbn; intuition discriminate. Qed.

(** C27 *)
Theorem C27_single_character : forall o ch, chanoma_neologdn o = Ok ch -> forall dbg o' c t,
  (neologdn_rel c t \/ (t = c /\ forall u, ~ neologdn_rel c u)) ->
  normalize dbg o' ch [c] = Ok (if N.eqb t space || existsb (N.eqb t) tilde_variants then [] else [t]).
Proof. intros o ch H dbg o' c t Hc. neo H. rewrite normalize_neo. f_equal. apply neo_single, Hc. Qed.
Print Assumptions C27_single_character.
Theorem C27_map_exact : forall o n, neologdn_new o = Ok n -> forall c t,
  In (c, t) (neo_conv n) <-> neologdn_rel c t.
Proof. intros o n H c t. rewrite neologdn_new_eq in H. injection H as <-. apply NEO_rel. Qed.
Print Assumptions C27_map_exact.
Theorem C27_functional : forall c t u, neologdn_rel c t -> neologdn_rel c u -> t = u.
Proof. intros c t u H H'. apply NEO_get in H. apply NEO_get in H'. congruence. Qed.
Print Assumptions C27_functional.
Example C27_case : neologdn_rel 0xFF11%N 0x31%N /\ neologdn_rel 0x2014%N 0x30FC%N /\ neologdn_rel 0x2212%N 0x2D%N /\
  forall u, ~ neologdn_rel 0xFF1D%N u.
Proof.
  split; [apply nr_preset; [discriminate|apply (pr_fullwidth 0xFF11%N); repeat split; discriminate]|].
  split; [apply nr_dash; cbn; auto|]. split; [apply nr_hyphen; cbn; tauto|].
  intros u H. apply NEO_get in H. vm_compute in H. discriminate.
Qed.

(** C28 *)
Theorem C28_map_exact : forall o n, neologdn_new o = Ok n -> forall k v,
  In (k, v) (neo_lig n) <-> exists a m t, k = [a; m] /\ v = [t] /\ composes a m t.
Proof. intros o n H k v. rewrite neologdn_new_eq in H. injection H as <-. rewrite NEO_lig. apply lig_rel. Qed.
Print Assumptions C28_map_exact.
Theorem C28_pair_composed : forall o ch, chanoma_neologdn o = Ok ch -> forall dbg o' a m t,
  composes a m t -> normalize dbg o' ch [a; m] = Ok [t].
Proof. intros o ch H dbg o' a m t Hc. neo H. rewrite normalize_neo. f_equal. apply neo_pair, Hc. Qed.
Print Assumptions C28_pair_composed.
Theorem C28_other_pairs_kept : forall o ch, chanoma_neologdn o = Ok ch -> forall dbg o' a m,
  (forall t, ~ neologdn_rel a t) -> (forall t, ~ neologdn_rel m t) ->
  a <> space -> m <> space -> ~ In a tilde_variants -> ~ In m tilde_variants ->
  (a <> prolonged_mark \/ m <> prolonged_mark) ->
  (forall t, ~ composes a m t) -> normalize dbg o' ch [a; m] = Ok [a; m].
Proof.
  intros o ch H dbg o' a m H1 H2 H3 H4 H5 H6 H7 H8. neo H. rewrite normalize_neo. f_equal.
  apply neo_no_pair; assumption.
Qed.
Print Assumptions C28_other_pairs_kept.
Example C28_case : composes 0x30AB%N 0x309B%N 0x30AC%N /\ composes 0x306F%N 0x309C%N 0x3071%N /\
  length (filter (fun p => negb (existsb (N.eqb (fst p)) uncomposed)) voiced_forms) = 42 /\ length semivoiced_forms = 10.
Proof.
  split; [left; split; [reflexivity|]; split; [apply pair_mem_In; reflexivity|cbn; intuition discriminate]|].
  split; [right; split; [reflexivity|]; apply pair_mem_In; reflexivity|]. split; reflexivity.
Qed.

(** C29 *)
Theorem C29_no_positions : forall o ch, chanoma_neologdn o = Ok ch -> forall o' s, exists m out,
  normalize_with_positions o' ch s = Ok [Record m out []].
Proof. intros o ch H o' s. neo H. eexists. eexists. apply normalize_with_positions_neo. Qed.
Print Assumptions C29_no_positions.
Theorem C29_positions_account_refuted : exists o ch s m out,
  chanoma_neologdn o = Ok ch /\ normalize_with_positions o ch s = Ok [Record m out []] /\ out <> s.
Proof.
  exists no_order, [MNeo NEO], [0xFF21]%N, (MNeo NEO), [0x41]%N. rewrite chanoma_neologdn_eq.
  split; [reflexivity|]. split; [vm_compute; reflexivity|discriminate].
Qed.
Print Assumptions C29_positions_account_refuted.
