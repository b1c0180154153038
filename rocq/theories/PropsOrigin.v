(** Property C76: where the characters of a normalised text come from. *)
From Coq Require Import String Permutation.
From Verif Require Import Base BaseFacts Utf8 StrOps Corr Table Charset Position Converter Eliminator Reducer Dotted Ligature TrimMod Neologdn
  ModifierKind ChanomaModel CharSpec Spec ConverterFacts ConverterProps SimpleFacts SimpleProps LigFacts PropsConverter PropsSimple PropsLig NeoFacts
  CharsetFacts NeoProps PropsNeo PropsPipeline NeoSpec NeoMore PropsNeoMore CommProps.
Local Open Scope string_scope.
Local Open Scope list_scope.

(** The characters a modifier can introduce, from its documented contents. *)
Definition introduces (m : modifier) (d : char) : Prop :=
  match m with
  | MConv cc => exists c, c <> d /\ result [MConv cc] [c] [d]
  | MLig l => exists k v, In (k, v) l /\ In d v /\ ~ In d k
  | MNeo _ => (~ In d tilde_variants /\ exists c, neologdn_rel c d) \/ exists a m, composes a m d
  | MElim _ | MRed _ | MDot | MTrim => False
  end.
(** A modifier leaves the character alone: it neither looks for it nor writes it. *)
Definition leaves (m : modifier) (d : char) : Prop :=
  match m with
  | MConv cc => forall c, result [MConv cc] [c] [d] <-> c = d
  | MElim el => ~ In d el
  | MRed k => d <> k
  | MDot | MTrim => d <> space
  | MLig l => forall k v, In (k, v) l -> ~ In d k /\ ~ In d v
  | MNeo _ => untouched d
  end.

(** ** Lemmas *)
Lemma in_pointwise R s out d : pointwise R s out -> In d out -> In d s \/ exists c, R c d.
Proof.
  unfold pointwise. induction 1 as [|c t s out H _ IH]; [intros []|]. cbn [In]. intros [->|I].
  - destruct H as [H|[-> _]]; [right; exists c; exact H|left; left; reflexivity].
  - destruct (IH I) as [J|J]; [left; right; exact J|right; exact J].
Qed.
Lemma in_collapsed c s out d : collapsed c s out -> In d out -> In d s.
Proof.
  induction 1 as [|x s out N H IH|n s out N _ H IH]; cbn [In]; [tauto| |].
  - intros [->|I]; [left; reflexivity|right; apply IH, I].
  - intros I. apply in_app_iff. destruct I as [->|I]; [left|right; apply IH, I]. destruct n; [lia|left; reflexivity].
Qed.
Lemma in_undotted p s out d : undotted p s out -> In d out -> In d s.
Proof.
  induction 1 as [|p x s a Hx H IH|p n s a Hn Hs H1 H2 H IH|p n s a Hn Hs H1 H IH]; intros I.
  - exact I.
  - destruct I as [->|I]; [left; reflexivity|right; apply IH, I].
  - apply in_app_iff. destruct I as [<-|I]; [left; destruct n; [lia|left; reflexivity]|right; apply IH, I].
  - apply in_app_iff. right. apply IH, I.
Qed.
Lemma in_replaced R s out d : replaced R s out -> In d out -> In d s \/ exists k v, R k v /\ In d v /\ (~ In d s -> ~ In d k).
Proof.
  induction 1 as [|k v s out K H _ IH|x s out _ _ IH]; intros I.
  - destruct I.
  - apply in_app_iff in I as [I|I].
    + right. exists k, v. split; [exact H|]. split; [exact I|]. intros N J. apply N, in_app_iff. left. exact J.
    + destruct (IH I) as [J|(k' & v' & J1 & J2 & J3)]; [left; apply in_app_iff; right; exact J|].
      right. exists k', v'. split; [exact J1|]. split; [exact J2|]. intros N. apply J3. intros J. apply N, in_app_iff. right. exact J.
  - destruct I as [->|I]; [left; left; reflexivity|].
    destruct (IH I) as [J|(k' & v' & J1 & J2 & J3)]; [left; right; exact J|].
    right. exists k', v'. split; [exact J1|]. split; [exact J2|]. intros N. apply J3. intros J. apply N. right. exact J.
Qed.
Lemma in_inserted v s out d : inserted v s out -> In d out -> In d s \/ In d v.
Proof.
  unfold inserted. intros ->. rewrite in_app_iff. intros [I|I]; [|right; exact I].
  apply in_concat in I as (l & Hl & I). apply in_map_iff in Hl as (c & <- & Hc). apply in_app_iff in I as [I|[->|[]]]; [right; exact I|left; exact Hc].
Qed.
Lemma in_turn l s out d : applied_in_turn l s out -> In d out -> In d s \/ exists k v, In (k, v) l /\ In d v /\ ~ In d k.
Proof.
  induction 1 as [s|k v l s t out K H _ IH|v l s t out H _ IH]; intros I; [left; exact I| |].
  - destruct (IH I) as [J|(k' & v' & J1 & J2)]; [|right; exists k', v'; split; [right; exact J1|exact J2]].
    destruct (in_dec N.eq_dec d s) as [Q|Q]; [left; exact Q|].
    destruct (in_replaced _ _ _ _ H J) as [Z|(k' & v' & (-> & ->) & J2 & J3)]; [left; exact Z|].
    right. exists k, v. split; [left; reflexivity|]. split; [exact J2|exact (J3 Q)].
  - destruct (IH I) as [J|(k' & v' & J1 & J2)]; [|right; exists k', v'; split; [right; exact J1|exact J2]].
    destruct (in_inserted _ _ _ _ H J) as [Z|Z]; [left; exact Z|].
    right. exists [], v. split; [left; reflexivity|]. split; [exact Z|intros []].
Qed.
(** Entries whose key lacks [d] keep it; entries whose key has [d] do nothing to a text without it. *)
Lemma keep_replaced k v s out d : ~ In d k -> replaced (fun k' v' => k' = k /\ v' = v) s out -> In d s -> In d out.
Proof.
  intros N. induction 1 as [|k' v' s out K (-> & ->) _ IH|x s out _ _ IH]; intros I; [exact I| |].
  - apply in_app_iff in I as [I|I]; [contradiction|]. apply in_app_iff. right. apply IH, I.
  - destruct I as [->|I]; [left; reflexivity|right; apply IH, I].
Qed.
Lemma keep_inserted v s out d : inserted v s out -> In d s -> In d out.
Proof.
  intros -> I. apply in_app_iff. left. apply in_concat. exists (v ++ [d]). split; [apply (in_map (fun c => v ++ [c])), I|].
  apply in_app_iff. right. left. reflexivity.
Qed.
Lemma keep_turn l s out d : (forall k v, In (k, v) l -> ~ In d k) -> applied_in_turn l s out -> In d s -> In d out.
Proof.
  intros N H. revert N. induction H as [s|k v l s t out K H _ IH|v l s t out H _ IH]; intros N I; [exact I| |].
  - apply IH; [intros k' v' J; apply (N k' v'); right; exact J|]. apply (keep_replaced k v s t d); [apply (N k v); left; reflexivity|exact H|exact I].
  - apply IH; [intros k' v' J; apply (N k' v'); right; exact J|]. apply (keep_inserted v s t d H I).
Qed.
Lemma idle_replaced k v s d : In d k -> ~ In d s -> replaced (fun k' v' => k' = k /\ v' = v) s s.
Proof.
  intros K. induction s as [|x s IH]; intros N; [apply rep_nil|]. apply rep_miss; [|apply IH; intros I; apply N; right; exact I].
  intros k' v' (-> & ->) (r & E). apply N. rewrite E. apply in_app_iff. left. exact K.
Qed.
Lemma idle_turn l s d : (forall k v, In (k, v) l -> In d k) -> ~ In d s -> applied_in_turn l s s.
Proof.
  intros H N. induction l as [|[k v] l IH]; [apply ait_nil|]. pose proof (H k v (or_introl eq_refl)) as K.
  apply ait_key with s; [intros ->; destruct K|apply (idle_replaced k v s d K N)|]. apply IH. intros k' v' J. apply (H k' v'). right. exact J.
Qed.
Lemma app_turn l l' s t out : applied_in_turn l s t -> applied_in_turn l' t out -> applied_in_turn (l ++ l') s out.
Proof.
  induction 1 as [s|k v l s t0 out0 K H H2 IH|v l s t0 out0 H H2 IH]; intros H'; cbn [app]; [exact H'| |].
  - apply ait_key with t0; [exact K|exact H|exact (IH H')].
  - apply ait_empty with t0; [exact H|exact (IH H')].
Qed.
Lemma turn_total l s : exists out, applied_in_turn l s out.
Proof. eexists. apply in_turn_fold. Qed.
Lemma one_turn k v d : In d v -> exists t, applied_in_turn [(k, v)] k t /\ In d t.
Proof.
  intros V. destruct k as [|a k].
  - exists v. split; [|exact V]. apply ait_empty with v; [reflexivity|apply ait_nil].
  - exists (v ++ []). split; [|apply in_app_iff; left; exact V]. apply ait_key with (v ++ []); [discriminate| |apply ait_nil].
    rewrite <- (app_nil_r (a :: k)). apply rep_hit; [discriminate|split; rewrite ?app_nil_r; reflexivity|apply rep_nil].
Qed.
Lemma filter_perm {A} (f : A -> bool) (l : list A) : Permutation l (filter f l ++ filter (fun x => negb (f x)) l).
Proof.
  induction l as [|x l IH]; [reflexivity|]. cbn [filter]. destruct (f x); cbn [negb].
  - cbn [app]. constructor. exact IH.
  - apply Permutation_cons_app. exact IH.
Qed.
Lemma lig_introduces l k v d : In (k, v) l -> In d v -> ~ In d k -> exists out, result [MLig l] k out /\ In d out.
Proof.
  intros I V K. apply in_split in I as (l1 & l2 & ->). set (f := fun kv : str * str => if in_dec N.eq_dec d (fst kv) then true else false).
  set (r := l1 ++ l2). destruct (one_turn k v d V) as (t & T & J).
  destruct (turn_total (filter (fun kv => negb (f kv)) r) t) as (out & O). exists out. split.
  - apply C22_outcomes_exact. exists (filter f r ++ [(k, v)] ++ filter (fun kv => negb (f kv)) r). split.
    + cbn [app]. symmetry. etransitivity; [symmetry; apply Permutation_middle|]. symmetry. etransitivity; [symmetry; apply Permutation_middle|].
      constructor. apply filter_perm.
    + refine (app_turn (filter f r) _ k k out _ (app_turn [(k, v)] _ k t out T O)). apply (idle_turn _ _ d); [|exact K].
      intros k' v' Q. apply filter_In in Q as (_ & Q). unfold f in Q. cbn [fst] in Q. destruct (in_dec N.eq_dec d k'); [assumption|discriminate].
  - refine (keep_turn _ t out d _ O J). intros k' v' Q. apply filter_In in Q as (_ & Q). unfold f in Q. cbn [fst] in Q.
    destruct (in_dec N.eq_dec d k'); [discriminate|assumption].
Qed.
Lemma neo_result n s out : constructible (MNeo n) -> (result [MNeo n] s out <-> neologdn_result s out).
Proof.
  intros C. destruct (C n eq_refl) as (o' & Hn). apply neo_new_inv in Hn. subst n. unfold result. rewrite <- neo_text_result. split.
  - intros (o & H). rewrite normalize_neo in H. apply Ok_inj in H. exact H.
  - intros H. exists no_order. rewrite normalize_neo. f_equal. exact H.
Qed.
Lemma introduced_one m s out d : constructible m -> result [m] s out -> In d out -> In d s \/ introduces m d.
Proof.
  intros C R I. destruct m as [cc|el|k| |l| |n]; cbn [introduces].
  - apply (does_conv cc) in R. subst out. apply in_map_iff in I as (c & E & I).
    destruct (N.eq_dec c d) as [->|D]; [left; exact I|right]. exists c. split; [exact D|]. apply conv_single. symmetry. exact E.
  - apply (does_elim el) in R. subst out. apply filter_In in I. left. apply I.
  - apply (does_red k) in R. subst out. left. rewrite <- red_modify_rec in I. apply (in_collapsed k s (red_modify k s)); [apply red_modify_spec; reflexivity|exact I].
  - apply does_dot in R. subst out. left. rewrite <- dot_modify_rec in I. apply (in_undotted None s (dot_modify s)); [apply dot_modify_spec; reflexivity|exact I].
  - apply C22_outcomes_exact in R as (l' & P & T). destruct (in_turn _ _ _ _ T I) as [J|(k & v & J & K)]; [left; exact J|right].
    exists k, v. split; [apply (Permutation_in _ (Permutation_sym P)), J|exact K].
  - apply does_trim in R. subst out. left. destruct (trim_modify_trimmed s) as (_ & _ & a & b & E). rewrite E. apply in_app_iff. right. apply in_app_iff. left. exact I.
  - apply (neo_result n s out C) in R. destruct R as (a & b & c & H1 & H2 & H3 & H4).
    destruct (in_replaced _ _ _ _ H4 I) as [J|(k & v & (x & m & t & -> & -> & K) & J & _)].
    + apply filter_In in J as (J & T). apply (in_undotted _ _ _ _ H3) in J. apply (in_collapsed _ _ _ _ H2) in J.
      destruct (in_pointwise _ _ _ _ H1 J) as [Q|Q]; [left; exact Q|right; left]. split; [|exact Q].
      intros Z. unfold not_tilde in T. apply negb_true_iff in T. rewrite <- not_true_iff_false in T. apply T. apply existsb_exists. exists d.
      split; [exact Z|apply N.eqb_refl].
    + destruct J as [->|[]]. right. right. exists x, m. exact K.
Qed.
Lemma neo_rel_irrefl c : ~ neologdn_rel c c.
Proof.
  intros H. apply neologdn_pairs_rel in H. assert (F : forallb (fun p => negb (N.eqb (fst p) (snd p))) neologdn_pairs = true) by (vm_compute; reflexivity).
  rewrite forallb_forall in F. apply F in H. cbn [fst snd] in H. rewrite N.eqb_refl in H. discriminate H.
Qed.
Lemma composes_fresh a m d : composes a m d -> a <> d /\ m <> d.
Proof.
  intros H. assert (Hp : In ([a; m], [d]) composes_pairs) by (apply composes_pairs_rel; exists a, m, d; auto).
  assert (F : forallb (fun p : str * str => forallb (fun x => negb (existsb (N.eqb x) (snd p))) (fst p)) composes_pairs = true) by (vm_compute; reflexivity).
  rewrite forallb_forall in F. apply F in Hp. cbn [fst snd forallb existsb] in Hp. rewrite !orb_false_r, andb_true_r in Hp.
  apply andb_true_iff in Hp as (H1 & H2). apply negb_true_iff in H1, H2. apply N.eqb_neq in H1, H2. auto.
Qed.
Lemma introduces_one m d : constructible m -> introduces m d -> exists s out, result [m] s out /\ In d out /\ ~ In d s.
Proof.
  intros C. destruct m as [cc|el|k| |l| |n]; cbn [introduces]; try contradiction.
  - intros (c & D & R). exists [c], [d]. split; [exact R|]. split; [left; reflexivity|]. intros [E|[]]. exact (D E).
  - intros (k & v & I & V & K). destruct (lig_introduces l k v d I V K) as (out & R & J). exists k, out. auto.
  - destruct (C n eq_refl) as (o' & Hn). apply neo_new_inv in Hn. subst n.
    assert (Rn : forall s out, neo_text s = out -> result [MNeo NEO] s out).
    { intros s out E. exists no_order. rewrite normalize_neo. f_equal. exact E. }
    intros [(T & c & H)|(a & m & H)].
    + assert (D : c <> d) by (intros ->; exact (neo_rel_irrefl d H)).
      destruct (N.eq_dec d space) as [->|S].
      * exists [0x61; 0x3000; 0x61]%N, [0x61; 0x20; 0x61]%N. split; [apply Rn; vm_compute; reflexivity|]. split; [right; left; reflexivity|].
        intros [E|[E|[E|[]]]]; discriminate E.
      * exists [c], [d]. split; [|split; [left; reflexivity|intros [E|[]]; exact (D E)]]. apply Rn. rewrite (neo_single c d (or_introl H)).
        rewrite (proj2 (N.eqb_neq d space) S). cbn [orb]. destruct (existsb (N.eqb d) tilde_variants) eqn:E; [|reflexivity].
        exfalso. apply T. apply existsb_exists in E as (x & I & Q). apply N.eqb_eq in Q. subst. exact I.
    + exists [a; m], [d]. split; [apply Rn, (neo_pair a m d H)|]. split; [left; reflexivity|]. destruct (composes_fresh a m d H) as (H1 & H2).
      intros [E|[E|[]]]; [exact (H1 E)|exact (H2 E)].
Qed.

(** ** C76 *)
(** Every character of the result is one of the text or one that a modifier of the pipeline introduces. *)
Theorem C76_origin : forall c, Forall constructible c -> forall s out, result c s out ->
  forall d, In d out -> In d s \/ exists m, In m c /\ introduces m d.
Proof.
  intros c. induction c as [|m c IH]; intros C s out R d I.
  - apply result_nil in R. subst. left. exact I.
  - inversion C as [|? ? Cm Cc]; subst. change (m :: c) with ([m] ++ c) in R. apply result_app in R as (mid & R1 & R2).
    destruct (IH Cc mid out R2 d I) as [J|(m' & J & K)]; [|right; exists m'; split; [right; exact J|exact K]].
    destruct (introduced_one m s mid d Cm R1 J) as [Q|Q]; [left; exact Q|right]. exists m. split; [left; reflexivity|exact Q].
Qed.
Print Assumptions C76_origin.
(** ... and each of them can introduce each of these, for some text and iteration order. *)
Theorem C76_introduces_exact : forall m, constructible m -> forall d,
  introduces m d <-> exists s out, result [m] s out /\ In d out /\ ~ In d s.
Proof.
  intros m C d. split; [apply introduces_one, C|]. intros (s & out & R & I & N).
  destruct (introduced_one m s out d C R I) as [Q|Q]; [contradiction|exact Q].
Qed.
Print Assumptions C76_introduces_exact.
Lemma neo_rel_scalar c d : neologdn_rel c d -> is_scalar d = true.
Proof.
  intros H. apply neologdn_pairs_rel in H. assert (F : forallb (fun p => is_scalar (snd p)) neologdn_pairs = true) by (vm_compute; reflexivity).
  rewrite forallb_forall in F. apply F in H. exact H.
Qed.
Lemma composes_scalar a m d : composes a m d -> is_scalar d = true.
Proof.
  intros H. assert (Hp : In ([a; m], [d]) composes_pairs) by (apply composes_pairs_rel; exists a, m, d; auto).
  assert (F : forallb (fun p : str * str => forallb is_scalar (snd p)) composes_pairs = true) by (vm_compute; reflexivity).
  rewrite forallb_forall in F. apply F in Hp. cbn [snd forallb] in Hp. rewrite andb_true_r in Hp. exact Hp.
Qed.
(** The replacements of a modifier are text (as Rust's types [char] and [String] require). *)
Definition text_replacements (m : modifier) : Prop :=
  match m with
  | MConv cc => forall c d, result [MConv cc] [c] [d] -> is_scalar c = true -> is_scalar d = true
  | MLig l => forall k v, In (k, v) l -> valid_str v
  | _ => True
  end.
(** So the result consists of Unicode scalar values again. *)
Theorem C76_text_stays_text : forall c, Forall constructible c -> Forall text_replacements c -> forall s out, valid_str s -> result c s out -> valid_str out.
Proof.
  intros c. induction c as [|m c IH]; intros C T s out V R.
  - apply result_nil in R. subst. exact V.
  - inversion C as [|? ? Cm Cc]; subst. inversion T as [|? ? Tm Tc]; subst. change (m :: c) with ([m] ++ c) in R. apply result_app in R as (mid & R1 & R2).
    apply (IH Cc Tc mid out); [|exact R2]. clear R2 out IH. apply Forall_forall. intros d I. unfold valid_str in V. rewrite Forall_forall in V.
    destruct m as [cc|el|k| |l| |n]; cbn [text_replacements] in Tm.
    + apply (does_conv cc) in R1. subst mid. apply in_map_iff in I as (c' & E & I). apply (Tm c' d); [apply conv_single; symmetry; exact E|apply V, I].
    + destruct (introduced_one _ _ _ _ Cm R1 I) as [Q|[]]. apply V, Q.
    + destruct (introduced_one _ _ _ _ Cm R1 I) as [Q|[]]. apply V, Q.
    + destruct (introduced_one _ _ _ _ Cm R1 I) as [Q|[]]. apply V, Q.
    + destruct (introduced_one _ _ _ _ Cm R1 I) as [Q|(k & v & Q & J & _)]; [apply V, Q|]. specialize (Tm k v Q). unfold valid_str in Tm. rewrite Forall_forall in Tm. apply Tm, J.
    + destruct (introduced_one _ _ _ _ Cm R1 I) as [Q|[]]. apply V, Q.
    + destruct (introduced_one _ _ _ _ Cm R1 I) as [Q|[(_ & c' & Q)|(a & m & Q)]]; [apply V, Q|apply (neo_rel_scalar c'), Q|apply (composes_scalar a m), Q].
Qed.
Print Assumptions C76_text_stays_text.

(** Characters that every modifier leaves alone are all kept, in order. *)
Lemma leaves_one m f s out : constructible m -> (forall d, f d = true -> leaves m d) -> result [m] s out -> filter f out = filter f s.
Proof.
  intros C L R. destruct m as [cc|el|k| |l| |n]; cbn [leaves] in L.
  - apply (does_conv cc) in R. subst out. induction s as [|c s IH]; [reflexivity|]. cbn [map filter]. rewrite IH.
    destruct (f (conv1 cc c)) eqn:F1.
    + assert (E : c = conv1 cc c) by (apply (L _ F1), conv_single; reflexivity). rewrite <- E in F1 |- *. rewrite F1. reflexivity.
    + destruct (f c) eqn:F2; [|reflexivity]. pose proof (proj2 (L c F2 c) eq_refl) as E. apply conv_single in E. congruence.
  - apply (does_elim el) in R. subst out. induction s as [|c s IH]; [reflexivity|]. cbn [filter]. destruct (mem N.eqb c el) eqn:M; cbn [negb].
    + rewrite IH. destruct (f c) eqn:F; [|reflexivity]. exfalso. apply (L c F). unfold mem in M. apply existsb_exists in M as (x & I & E). apply N.eqb_eq in E. subst. exact I.
    + cbn [filter]. rewrite IH. reflexivity.
  - apply (does_red k) in R. subst out. apply (filter_red f). destruct (f k) eqn:F; [|reflexivity]. destruct (L k F eq_refl).
  - apply does_dot in R. subst out. apply (filter_dot f). destruct (f SPACE) eqn:F; [|reflexivity]. destruct (L SPACE F eq_refl).
  - apply C22_outcomes_exact in R as (l' & P & T). assert (L' : forall d k v, f d = true -> In (k, v) l' -> ~ In d k /\ ~ In d v).
    { intros d k v F I. apply (L d F k v). apply (Permutation_in _ (Permutation_sym P)), I. }
    clear L P C. assert (E0 : forall k, (forall d, f d = true -> ~ In d k) -> filter f k = []).
    { intros k H. induction k as [|x k IH]; [reflexivity|]. cbn [filter]. destruct (f x) eqn:F; [destruct (H x F); left; reflexivity|].
      apply IH. intros d Fd I. apply (H d Fd). right. exact I. }
    induction T as [s|k v l' s t out K H T IH|v l' s t out H T IH]; [reflexivity| |]; rewrite IH by (intros d k' v' F I; apply (L' d k' v' F); right; exact I); clear IH.
    + assert (Ek : filter f k = []) by (apply E0; intros d F; apply (L' d k v F); left; reflexivity).
      assert (Ev : filter f v = []) by (apply E0; intros d F; apply (L' d k v F); left; reflexivity).
      clear -H Ek Ev. induction H as [|k' v' s out K (-> & ->) _ IH|x s out _ _ IH]; [reflexivity| |].
      * rewrite !filter_app, Ek, Ev. exact IH.
      * cbn [filter]. rewrite IH. reflexivity.
    + assert (Ev : filter f v = []) by (apply E0; intros d F; apply (L' d [] v F); left; reflexivity).
      rewrite H, filter_app, Ev, app_nil_r. clear -Ev. induction s as [|x s IH]; [reflexivity|]. cbn [map concat]. rewrite <- app_assoc, filter_app, Ev. cbn [app filter]. rewrite IH. reflexivity.
  - apply does_trim in R. subst out. apply (filter_trim f). destruct (f SPACE) eqn:F; [|reflexivity]. destruct (L SPACE F eq_refl).
  - apply (neo_result n s out C) in R. apply (kept_neo f); [exact L|exact R].
Qed.
Theorem C76_left_alone : forall c, Forall constructible c -> forall f : char -> bool, (forall m d, In m c -> f d = true -> leaves m d) ->
  forall s out, result c s out -> filter f out = filter f s.
Proof.
  intros c. induction c as [|m c IH]; intros C f L s out R.
  - apply result_nil in R. subst. reflexivity.
  - inversion C as [|? ? Cm Cc]; subst. change (m :: c) with ([m] ++ c) in R. apply result_app in R as (mid & R1 & R2).
    rewrite (IH Cc f (fun m' d I F => L m' d (or_intror I) F) mid out R2). apply (leaves_one m f s mid Cm); [|exact R1].
    intros d F. apply (L m d); [left; reflexivity|exact F].
Qed.
Print Assumptions C76_left_alone.
(** Spaces, ligatures and eliminated characters: a text and its characters. *)
Example C76_case : introduces (MLig [(lit "ab", lit "X")]) 0x58%N /\ ~ introduces (MLig [(lit "ab", lit "ba")]) 0x61%N /\
  introduces (MConv [(0xFF21, 0x41)]%N) 0x41%N /\ (exists n, constructible (MNeo n) /\ introduces (MNeo n) 0x30AC%N /\ ~ introduces (MNeo n) 0x7E%N).
Proof.
  split; [exists (lit "ab"), (lit "X"); cbn; intuition discriminate|]. split.
  { intros (k & v & [E|[]] & _ & N). injection E as <- <-. apply N. left. reflexivity. }
  split; [exists 0xFF21%N; split; [discriminate|apply conv_single; reflexivity]|].
  exists NEO. split; [intros n E; exists no_order; rewrite neologdn_new_eq; congruence|]. split.
  - right. exists 0x30AB%N, voiced_mark. left. split; [reflexivity|]. split; [apply pair_mem_In; reflexivity|cbn; intuition discriminate].
  - intros [(T & _)|(a & m & H)]; [apply T; left; reflexivity|].
    assert (Hp : In ([a; m], [0x7E%N]) composes_pairs) by (apply composes_pairs_rel; exists a, m, 0x7E%N; auto).
    assert (F : forallb (fun p : str * str => negb (str_eqb (snd p) [0x7E%N])) composes_pairs = true) by (vm_compute; reflexivity).
    rewrite forallb_forall in F. apply F in Hp. discriminate Hp.
Qed.
