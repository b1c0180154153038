(** Lemmas for C93: repeating a normalisation. *)
From Verif Require Import Base BaseFacts Utf8 StrOps Position Converter Eliminator Reducer Dotted Ligature TrimMod Neologdn ModifierKind
  ChanomaModel Spec NeoSpec CharsetFacts ConverterFacts SimpleFacts LigFacts TableFacts NeoFacts NeoProps NeoMore
  ConverterProps SimpleProps PropsConverter PropsLig PropsNeo PropsPipeline PropsNeoMore CommProps RepeatSpec.

(** ** Removing modifiers as functions *)
Definition step (m : modifier) (s : str) : str :=
  match m with
  | MElim el => elim_modify el s
  | MRed k => red_modify k s
  | MDot => dot_modify s
  | MTrim => trim_modify s
  | _ => s
  end.
Definition pass (c : chanoma) (s : str) : str := fold_left (fun t m => step m t) c s.
Lemma step_does m : removing m -> does m (step m).
Proof.
  intros [(el & ->)|[(k & ->)|[->| ->]]]; apply does_of; intros o s; cbn [step].
  - apply normalize_elim.
  - apply normalize_red.
  - apply normalize_dot.
  - apply normalize_trim.
Qed.
Lemma pass_result c : (forall m, In m c -> removing m) -> forall s out, result c s out <-> out = pass c s.
Proof.
  induction c as [|m c IH]; intros H s out; [apply result_nil|].
  change (m :: c) with ([m] ++ c) at 1. rewrite result_app. cbn [pass fold_left]. split.
  - intros (mid & A & B). apply (step_does m (H m (or_introl eq_refl))) in A. subst mid.
    apply IH in B; [exact B|]. intros x I. apply H. right; exact I.
  - intros ->. exists (step m s). split; [apply (step_does m (H m (or_introl eq_refl))); reflexivity|].
    apply IH; [|reflexivity]. intros x I. apply H. right; exact I.
Qed.

(** ** What each modifier leaves alone *)
Definition stab (m : modifier) (s : str) : Prop :=
  match m with
  | MElim el => forall c, In c s -> ~ In c el
  | MRed k => no_adjacent k s
  | MDot => spaces_between s
  | MTrim => hd_error s <> Some space /\ hd_error (rev s) <> Some space
  | _ => True
  end.
Lemma stab_fix m s : stab m s -> step m s = s.
Proof.
  destruct m as [cc|el|k| |l| |n]; cbn [stab step]; intros H; try reflexivity.
  - rewrite elim_modify_filter. induction s as [|c s IH]; [reflexivity|]. cbn [filter].
    assert (E : mem N.eqb c el = false) by (apply (mem_false N.eqb N.eqb_eq), H; left; reflexivity). rewrite E. cbn [negb].
    f_equal. apply IH. intros x I. apply H. right; exact I.
  - apply no_adjacent_fix, H.
  - apply dot_modify_fix, H.
  - symmetry. apply (trimmed_unique s); [|apply trim_modify_trimmed]. destruct H as [A B]. split; [exact A|]. split; [exact B|].
    exists 0, 0. cbn [repeat app]. rewrite app_nil_r. reflexivity.
Qed.
Lemma stab_made m s : stab m (step m s).
Proof.
  destruct m as [cc|el|k| |l| |n]; cbn [stab step]; try exact I.
  - intros c Ic J. rewrite elim_modify_filter in Ic. apply filter_In in Ic as [_ Ic]. apply negb_true_iff in Ic.
    apply (mem_false N.eqb N.eqb_eq) in Ic. exact (Ic J).
  - apply red_modify_no_adjacent.
  - apply dot_modify_between.
  - destruct (trim_modify_trimmed s) as (A & B & _). auto.
Qed.

(** ** No character is new *)
Lemma red_rec_In k b s c : In c (red_rec k b s) -> In c s.
Proof.
  revert b; induction s as [|x s IH]; intros b; cbn [red_rec]; [tauto|].
  destruct (N.eqb k x); [destruct b|]; cbn [In]; intros H.
  - right. eapply IH, H.
  - destruct H as [H|H]; [left; exact H|right; eapply IH, H].
  - destruct H as [H|H]; [left; exact H|right; eapply IH, H].
Qed.
Lemma undotted_In p s out c : undotted p s out -> In c out -> In c s.
Proof.
  induction 1 as [p|p x s out Hx H IH|p n s out Hn Hh Hp Hq H IH|p n s out Hn Hh Hp H IH]; cbn [In].
  - tauto.
  - intros [E|E]; [left; exact E|right; apply IH, E].
  - intros [E|E]; apply in_or_app; [left; subst c; destruct n; [lia|left; reflexivity]|right; apply IH, E].
  - intros E. apply in_or_app. right. apply IH, E.
Qed.
Lemma step_In m s c : In c (step m s) -> In c s.
Proof.
  destruct m as [cc|el|k| |l| |n]; cbn [step]; try tauto.
  - rewrite elim_modify_filter, filter_In. tauto.
  - rewrite red_modify_rec. apply red_rec_In.
  - apply (undotted_In None). apply dot_modify_spec. reflexivity.
  - destruct (trim_modify_trimmed s) as (_ & _ & a & b & E). intros H. rewrite E. apply in_or_app. right. apply in_or_app. left. exact H.
Qed.

(** ** Run reduction keeps what the others have made *)
Lemma red_rec_hd k s : hd_error (red_rec k false s) = hd_error s.
Proof. destruct s as [|x s]; [reflexivity|]. cbn [red_rec]. destruct (N.eqb k x); reflexivity. Qed.
Lemma red_rec_nil k b s : red_rec k b s = [] -> forall x, In x s -> x = k.
Proof.
  revert b; induction s as [|y s IH]; intros b H x []; cbn [red_rec] in H; destruct (N.eqb_spec k y) as [->|Hn]; try (destruct b); try discriminate.
  - congruence.
  - eapply IH; eassumption.
Qed.
Lemma last_cons {A} (x y : A) s : hd_error (rev (x :: s)) = Some y <-> (s = [] /\ x = y) \/ hd_error (rev s) = Some y.
Proof.
  cbn [rev]. destruct (rev s) as [|z r] eqn:E.
  - assert (s = []) by (rewrite <- (rev_involutive s), E; reflexivity). subst s. cbn. split; [intros H; left; split; congruence|].
    intros [[_ ->]|H]; [reflexivity|discriminate].
  - cbn. split; [intros H; right; exact H|]. intros [[-> _]|H]; [discriminate|exact H].
Qed.
Lemma red_rec_last k b s y : hd_error (rev (red_rec k b s)) = Some y -> hd_error (rev s) = Some y.
Proof.
  revert b; induction s as [|x s IH]; intros b; [discriminate|].
  assert (G : forall b', (b' = true -> x = k) -> (b' = false -> x <> k) -> hd_error (rev (x :: red_rec k b' s)) = Some y -> hd_error (rev (x :: s)) = Some y).
  { intros b' T F H. apply last_cons in H as [[E ->]|H]; [|apply last_cons; right; eapply IH, H].
    destruct b'.
    - assert (R : y :: s = repeat k (S (length s))).
      { rewrite (T eq_refl). cbn [repeat]. f_equal. clear -E. pose proof (red_rec_nil _ _ _ E) as Q. clear E.
        induction s as [|z s IH]; [reflexivity|]. cbn [repeat length]. rewrite (Q z (or_introl eq_refl)). f_equal. apply IH. intros w I. apply Q. right; exact I. }
      rewrite R, rev_repeat, (T eq_refl). reflexivity.
    - destruct s as [|z s]; [reflexivity|]. exfalso. pose proof (red_rec_hd k (z :: s)) as Q. rewrite E in Q. discriminate. }
  cbn [red_rec]. destruct (N.eqb_spec k x) as [->|Hn].
  - destruct b; [|apply G; [reflexivity|discriminate]]. intros H. apply last_cons. right. eapply IH, H.
  - apply G; [discriminate|congruence].
Qed.
Lemma red_keeps_adjacent k d s : no_adjacent k s -> no_adjacent k (red_modify d s).
Proof.
  intros H. rewrite red_modify_rec. destruct (N.eq_dec k d) as [->|Hn]; [apply red_rec_no_adjacent|].
  assert (G : forall b, no_adjacent k (red_rec d b s)); [|apply G].
  assert (C : forall x t, no_adjacent k t -> (x = k -> hd_error t <> Some k) -> no_adjacent k (x :: t)).
  { intros x t T Q [|y a] r E; cbn [app] in E; injection E as E1 E2; [|apply (T a r E2)]. apply (Q E1). rewrite E2. reflexivity. }
  revert H; induction s as [|x s IH]; intros H b; [intros [|? ?] ? E; discriminate|].
  assert (Hs : no_adjacent k s) by (intros a r E; apply (H (x :: a) r); rewrite E; reflexivity).
  cbn [red_rec]. destruct (N.eqb_spec d x) as [<-|Hx].
  - destruct b; [apply IH, Hs|]. apply C; [apply IH, Hs|congruence].
  - apply C; [apply IH, Hs|]. intros -> E. rewrite red_rec_hd in E. destruct s as [|y s]; [discriminate|]. cbn in E. injection E as ->.
    apply (H [] s). reflexivity.
Qed.
Lemma red_keeps_dotted d s : spaces_between s -> spaces_between (red_modify d s).
Proof.
  intros H. destruct (N.eq_dec d space) as [->|Hn].
  - rewrite no_adjacent_fix; [exact H|]. destruct (spaces_between_no_outer _ H) as (_ & _ & A). exact A.
  - rewrite red_modify_rec. apply dotted_ok_between. apply dotted_ok_between in H. revert H. generalize (@None char) as p.
    assert (G : (forall p, dotted_ok p s -> dotted_ok p (red_rec d false s)) /\ (dotted_ok (Some d) s -> dotted_ok (Some d) (red_rec d true s))).
    { induction s as [|x s [IH1 IH2]]; [split; auto|]. cbn [red_rec]. destruct (N.eqb_spec d x) as [<-|Hx].
      - split; cbn [dotted_ok]; [intros p [_ A]; split; [intros E; destruct (Hn E)|apply IH2, A]|]. intros [_ A]. apply IH2, A.
      - split; cbn [dotted_ok]; [intros p|]; intros [A B]; (split; [rewrite red_rec_hd; exact A|apply IH1, B]). }
    apply G.
Qed.
Lemma red_keeps_trim d s : stab MTrim s -> stab MTrim (red_modify d s).
Proof.
  cbn [stab]. intros [A B]. rewrite red_modify_rec. split; [rewrite red_rec_hd; exact A|]. intros E. apply B. eapply red_rec_last, E.
Qed.
Lemma trim_keeps_adjacent k s : no_adjacent k s -> no_adjacent k (trim_modify s).
Proof.
  intros H a b E. destruct (trim_modify_trimmed s) as (_ & _ & n & p & T). rewrite E in T.
  apply (H (repeat space n ++ a) (b ++ repeat space p)). rewrite T, <- !app_assoc. reflexivity.
Qed.
Lemma between_trim s : spaces_between s -> stab MTrim s.
Proof. intros H. apply spaces_between_no_outer in H as (A & B & _). split; assumption. Qed.

(** ** One pass establishes what every step makes and no step destroys *)
Lemma establish c (K : str -> Prop) (Q : modifier -> str -> Prop) :
  (forall m s, In m c -> K s -> K (step m s)) -> (forall m s, In m c -> K s -> Q m (step m s)) ->
  (forall m m' s, In m c -> In m' c -> K s -> Q m s -> Q m (step m' s)) ->
  forall s, K s -> K (pass c s) /\ forall m, In m c -> Q m (pass c s).
Proof.
  intros HK HQ HP.
  assert (G : forall l done, (forall m, In m l -> In m c) -> (forall m, In m done -> In m c) -> forall s, K s -> (forall m, In m done -> Q m s) ->
     K (pass l s) /\ forall m, In m done \/ In m l -> Q m (pass l s)).
  { induction l as [|x l IH]; intros done Hl Hd s Ks Qs.
    - cbn [pass fold_left]. split; [exact Ks|]. intros m [I|[]]. apply Qs, I.
    - cbn [pass fold_left]. assert (Ix : In x c) by (apply Hl; left; reflexivity).
      destruct (IH (x :: done)) with (s := step x s) as [A B].
      + intros m I. apply Hl. right; exact I.
      + intros m [<-|I]; [exact Ix|apply Hd, I].
      + apply HK; assumption.
      + intros m [<-|I]; [apply HQ; assumption|]. apply HP; auto.
      + split; [exact A|]. intros m [I|[<-|I]]; apply B; [left; right; exact I|left; left; reflexivity|right; exact I]. }
  intros s Ks. destruct (G c []) with (s := s) as [A B]; [auto|intros m []|exact Ks|intros m []|]. split; [exact A|]. intros m I. apply B. right. exact I.
Qed.

Section Phases.
  Variable c : chanoma.
  Hypothesis R : forall m, In m c -> removing m.
  Definition no_eliminated (s : str) : Prop := forall el, In (MElim el) c -> stab (MElim el) s.
  Definition dotted_done (s : str) : Prop := In MDot c -> spaces_between s.
  Lemma keep_eliminated m s : no_eliminated s -> no_eliminated (step m s).
  Proof. intros H el I x J. apply step_In in J. exact (H el I x J). Qed.
  Lemma phase1 s : no_eliminated (pass c s).
  Proof.
    destruct (establish c (fun _ => True) (fun m t => match m with MElim el => stab m t | _ => True end)) with (s := s) as [_ B]; auto.
    - intros m t _ _. destruct m; auto. apply stab_made.
    - intros m m' t _ _ _. destruct m; auto. cbn [stab]. intros H y J. apply step_In in J. apply H, J.
    - intros el I. exact (B _ I).
  Qed.
  Lemma keep_dotted m s : In m c -> no_eliminated s -> spaces_between s -> spaces_between (step m s).
  Proof.
    intros I E D. destruct (R m I) as [(el & ->)|[(k & ->)|[->| ->]]].
    - rewrite stab_fix; [exact D|]. apply E, I.
    - apply red_keeps_dotted, D.
    - apply dot_modify_between.
    - rewrite stab_fix; [exact D|]. apply between_trim, D.
  Qed.
  Lemma phase2 s : no_eliminated s -> no_eliminated (pass c s) /\ dotted_done (pass c s).
  Proof.
    intros H. destruct (establish c no_eliminated (fun m t => match m with MDot => spaces_between t | _ => True end)) with (s := s) as [A B]; auto.
    - intros m t _. apply keep_eliminated.
    - intros m t _ _. destruct m; auto. apply dot_modify_between.
    - intros m m' t I J K. destruct m; auto. apply keep_dotted; assumption.
    - split; [exact A|]. intros I. exact (B _ I).
  Qed.
  Lemma phase3 s : no_eliminated s -> dotted_done s -> forall m, In m c -> stab m (pass c s).
  Proof.
    intros E D. destruct (establish c (fun t => no_eliminated t /\ dotted_done t) stab) with (s := s) as [_ B]; auto.
    - intros m t I [A B]. split; [apply keep_eliminated, A|]. intros J. apply keep_dotted; [exact I|exact A|apply B, J].
    - intros m t _ _. apply stab_made.
    - intros m m' t I J [A B] S. destruct (R m' J) as [(el & ->)|[(k & ->)|[->| ->]]].
      + rewrite stab_fix; [exact S|]. apply A, J.
      + destruct (R m I) as [(el & ->)|[(k' & ->)|[->| ->]]]; cbn [step].
        * intros x Jx. apply (step_In (MRed k)) in Jx. apply S, Jx.
        * apply red_keeps_adjacent, S.
        * apply red_keeps_dotted, S.
        * apply red_keeps_trim, S.
      + rewrite stab_fix; [exact S|]. apply B, J.
      + destruct (R m I) as [(el & ->)|[(k' & ->)|[->| ->]]]; cbn [step].
        * intros x Jx. apply (step_In MTrim) in Jx. apply S, Jx.
        * apply trim_keeps_adjacent, S.
        * rewrite (stab_fix MTrim); [exact S|]. apply between_trim, S.
        * apply (stab_made MTrim).
  Qed.
  Lemma all_stab s : (forall m, In m c -> stab m s) -> settled c s.
  Proof.
    intros H out. rewrite (pass_result c R). assert (E : pass c s = s); [|rewrite E; reflexivity].
    clear R. induction c as [|m l IH]; [reflexivity|]. cbn [pass fold_left]. rewrite stab_fix by (apply H; left; reflexivity).
    apply IH. intros x I. apply H. right; exact I.
  Qed.
  Lemma passes_snoc n s out : passes c (S n) s out -> exists mid, passes c n s mid /\ out = pass c mid.
  Proof. intros H. inversion H as [|? ? mid ? A B]; subst. exists mid. split; [exact A|]. apply (pass_result c R), B. Qed.
  Lemma settles n s out : (if existsb (fun m => match m with MElim _ => true | _ => false end) c then 1 else 0) +
    (if existsb (fun m => match m with MDot => true | _ => false end) c then 1 else 0) < n -> passes c n s out -> settled c out.
  Proof.
    set (e := existsb _ c). set (d := existsb _ c). intros L H.
    assert (E : e = false -> forall t, no_eliminated t).
    { intros X t el I. exfalso. assert (e = true); [|congruence]. apply existsb_exists. exists (MElim el). auto. }
    assert (D : d = false -> forall t, dotted_done t).
    { intros X t I. exfalso. assert (d = true); [|congruence]. apply existsb_exists. exists MDot. auto. }
    destruct n as [|n]; [lia|].
    assert (K : forall k t out, k >= (if e then 1 else 0) -> passes c k t out -> no_eliminated out).
    { intros k t o Lk P. destruct e; [|apply E; reflexivity]. destruct k as [|k]; [lia|]. apply passes_snoc in P as (mid & _ & ->). apply phase1. }
    assert (K' : forall k t out, k >= (if e then 1 else 0) + (if d then 1 else 0) -> passes c k t out -> no_eliminated out /\ dotted_done out).
    { intros k t o Lk P. destruct d; [|split; [eapply K; [|exact P]; lia|apply D; reflexivity]].
      destruct k as [|k]; [lia|]. apply passes_snoc in P as (mid & P & ->). apply phase2. eapply K; [|exact P]. lia. }
    apply passes_snoc in H as (mid & H & ->). apply all_stab. intros m I. destruct (K' n s mid) as [A B]; [lia|exact H|]. apply phase3; assumption.
  Qed.
End Phases.
