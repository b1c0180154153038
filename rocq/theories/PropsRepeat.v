(** Property C93: repeating a normalisation. *)
From Verif Require Import Base BaseFacts Utf8 StrOps Position Converter Eliminator Reducer Dotted Ligature TrimMod Neologdn ModifierKind
  ChanomaModel Spec NeoSpec CharsetFacts ConverterFacts SimpleFacts LigFacts TableFacts NeoFacts NeoProps NeoMore
  ConverterProps SimpleProps PropsConverter PropsLig PropsNeo PropsPipeline PropsNeoMore CommProps RepeatSpec RepeatProps.

(** Every number of passes has a result. *)
Theorem C93_passes_exist : forall c, Forall constructible c -> forall n s, exists out, passes c n s out.
Proof.
  intros c H n s. induction n as [|n (mid & IH)]; [exists s; constructor|].
  destruct (C32_lemma no_order c mid H) as (out & E & _). exists out. econstructor; [exact IH|]. exists no_order. exact E.
Qed.
Print Assumptions C93_passes_exist.

(** ** Modifiers that only remove *)
Theorem C93_three_passes : forall c, (forall m, In m c -> removing m) -> forall s out, passes c 3 s out -> settled c out.
Proof. intros c R s out. apply settles; [exact R|]. destruct (existsb _ c), (existsb _ c); lia. Qed.
Print Assumptions C93_three_passes.
Lemma no_exists {A} (f : A -> bool) l : (forall x, In x l -> f x = false) -> existsb f l = false.
Proof. intros H. apply not_true_is_false. intros E. apply existsb_exists in E as (x & I & E). rewrite (H x I) in E. discriminate. Qed.
Theorem C93_without_elimination : forall c, (forall m, In m c -> removing m) -> (forall el, ~ In (MElim el) c) ->
  forall s out, passes c 2 s out -> settled c out.
Proof.
  intros c R N s out. apply settles; [exact R|]. rewrite (no_exists (fun m => match m with MElim _ => true | _ => false end)).
  - destruct (existsb _ c); lia.
  - intros [cc|el|k| |l| |n] I; try reflexivity. destruct (N el I).
Qed.
Print Assumptions C93_without_elimination.
Theorem C93_without_dotted : forall c, (forall m, In m c -> removing m) -> ~ In MDot c ->
  forall s out, passes c 2 s out -> settled c out.
Proof.
  intros c R N s out. apply settles; [exact R|]. rewrite (no_exists (fun m => match m with MDot => true | _ => false end)).
  - destruct (existsb _ c); lia.
  - intros [cc|el|k| |l| |n] I; try reflexivity. destruct (N I).
Qed.
Print Assumptions C93_without_dotted.
Theorem C93_reductions_and_trims : forall c, (forall m, In m c -> m = MTrim \/ exists k, m = MRed k) ->
  forall s out, result c s out -> settled c out.
Proof.
  intros c R s out H. apply (settles c) with (n := 1) (s := s).
  - intros m I. destruct (R m I) as [->|(k & ->)]; [right; right; right|right; left; eexists]; reflexivity.
  - rewrite !no_exists; [lia| |]; intros m I; destruct (R m I) as [->|(k & ->)]; reflexivity.
  - econstructor; [constructor|exact H].
Qed.
Print Assumptions C93_reductions_and_trims.
(** Fewer passes would not do. *)
Theorem C93_two_passes_refuted : exists c s out, (forall m, In m c -> removing m) /\ passes c 2 s out /\ ~ settled c out.
Proof.
  assert (R : forall m, In m [MRed 0x30FC%N; MDot; MElim [98%N]] -> removing m).
  { intros m [<-|[<-|[<-|[]]]]; [right; left; eexists; reflexivity|right; right; left; reflexivity|left; eexists; reflexivity]. }
  exists [MRed 0x30FC%N; MDot; MElim [98%N]], [0x30FC; 98; 32; 98; 0x30FC]%N, [0x30FC; 0x30FC]%N. split; [exact R|]. split.
  - econstructor; [econstructor; [constructor|]|]; apply (pass_result _ R); vm_compute; reflexivity.
  - intros H. specialize (H [0x30FC%N]). rewrite (pass_result _ R) in H. discriminate (proj1 H eq_refl).
Qed.
Print Assumptions C93_two_passes_refuted.
Theorem C93_one_pass_without_elimination_refuted : exists c s out, (forall m, In m c -> removing m) /\ (forall el, ~ In (MElim el) c) /\
  result c s out /\ ~ settled c out.
Proof.
  assert (R : forall m, In m [MRed 0x30FC%N; MDot] -> removing m).
  { intros m [<-|[<-|[]]]; [right; left; eexists; reflexivity|right; right; left; reflexivity]. }
  exists [MRed 0x30FC%N; MDot], [0x30FC; 32; 0x30FC]%N, [0x30FC; 0x30FC]%N. split; [exact R|].
  split; [intros el [E|[E|[]]]; discriminate|]. split; [apply (pass_result _ R); vm_compute; reflexivity|].
  intros H. specialize (H [0x30FC%N]). rewrite (pass_result _ R) in H. discriminate (proj1 H eq_refl).
Qed.
Print Assumptions C93_one_pass_without_elimination_refuted.
Theorem C93_one_pass_without_dotted_refuted : exists c s out, (forall m, In m c -> removing m) /\ ~ In MDot c /\
  result c s out /\ ~ settled c out.
Proof.
  assert (R : forall m, In m [MTrim; MElim [98%N]] -> removing m).
  { intros m [<-|[<-|[]]]; [right; right; right; reflexivity|left; eexists; reflexivity]. }
  exists [MTrim; MElim [98%N]], [98; 32; 97]%N, [32; 97]%N. split; [exact R|].
  split; [intros [E|[E|[]]]; discriminate|]. split; [apply (pass_result _ R); vm_compute; reflexivity|].
  intros H. specialize (H [97%N]). rewrite (pass_result _ R) in H. discriminate (proj1 H eq_refl).
Qed.
Print Assumptions C93_one_pass_without_dotted_refuted.

(** The texts that a pipeline of removing modifiers leaves alone are those that each of its modifiers leaves alone. *)
Lemma red_rec_shorter k b s : length (red_rec k b s) <= length s /\ (length (red_rec k b s) = length s -> red_rec k b s = s).
Proof.
  revert b; induction s as [|x s IH]; intros b; cbn [red_rec length]; [auto|].
  destruct (N.eqb k x); [destruct b|]; cbn [length].
  - destruct (IH true). split; [lia|]. intros E. lia.
  - destruct (IH true) as [A B]. split; [lia|]. intros E. f_equal. apply B. lia.
  - destruct (IH false) as [A B]. split; [lia|]. intros E. f_equal. apply B. lia.
Qed.
Lemma undotted_shorter p s out : undotted p s out -> length out <= length s /\ (length out = length s -> out = s).
Proof.
  induction 1 as [p|p x s out Hx H [IH IE]|p n s out Hn Hh Hp Hq H [IH IE]|p n s out Hn Hh Hp H [IH IE]]; cbn [length]; rewrite ?app_length, ?repeat_length.
  - auto.
  - split; [lia|]. intros E. f_equal. apply IE. lia.
  - split; [lia|]. intros E. assert (n = 1) by lia. subst n. cbn [repeat app]. f_equal. apply IE. lia.
  - split; [lia|]. intros E. lia.
Qed.
Lemma step_shorter m s : length (step m s) <= length s /\ (length (step m s) = length s -> step m s = s).
Proof.
  destruct m as [cc|el|k| |l| |n]; cbn [step]; auto.
  - rewrite elim_modify_filter. induction s as [|c s [A B]]; [auto|]. cbn [filter length].
    destruct (negb _); cbn [length]; (split; [lia|]); intros E; [f_equal; apply B; lia|lia].
  - rewrite red_modify_rec. apply red_rec_shorter.
  - apply (undotted_shorter None). apply dot_modify_spec. reflexivity.
  - destruct (trim_modify_trimmed s) as (_ & _ & a & b & E). split.
    + rewrite E at 2. rewrite !app_length. lia.
    + intros L. rewrite E in L at 2. rewrite !app_length, !repeat_length in L. assert (a = 0) by lia. assert (b = 0) by lia. subst a b.
      cbn [repeat app] in E. rewrite app_nil_r in E. congruence.
Qed.
Lemma pass_shorter c s : length (pass c s) <= length s.
Proof.
  revert s; induction c as [|m c IH]; intros s; cbn [pass fold_left]; [lia|].
  change (length (pass c (step m s)) <= length s). destruct (step_shorter m s). specialize (IH (step m s)). lia.
Qed.
Theorem C93_settled_iff : forall c, (forall m, In m c -> removing m) -> forall s,
  settled c s <-> forall m, In m c -> settled [m] s.
Proof.
  intros c R s. split.
  - intros H. assert (E : pass c s = s) by (symmetry; apply (pass_result c R), H; reflexivity). clear H.
    assert (G : forall m, In m c -> step m s = s).
    { clear R. revert E. induction c as [|m c IH]; intros E x []; cbn [pass fold_left] in E; change (pass c (step m s) = s) in E;
        (assert (Q : step m s = s) by (destruct (step_shorter m s) as [A B]; apply B; pose proof (pass_shorter c (step m s)) as L; rewrite E in L; lia)).
      - subst x. exact Q.
      - rewrite Q in E. apply IH; assumption. }
    intros m I out. rewrite (step_does m (R m I) s out), (G m I). reflexivity.
  - intros H out. rewrite (pass_result c R). assert (E : pass c s = s); [|rewrite E; reflexivity].
    assert (G : forall m, In m c -> step m s = s).
    { intros m I. symmetry. apply (step_does m (R m I)). apply (H m I). reflexivity. }
    clear R H. induction c as [|m c IH]; [reflexivity|]. cbn [pass fold_left]. rewrite (G m (or_introl eq_refl)).
    apply IH. intros x I. apply G. right; exact I.
Qed.
Print Assumptions C93_settled_iff.
(** With other modifiers this fails: two conversions may undo each other. *)
Theorem C93_settled_iff_refuted : exists c s m, settled c s /\ In m c /\ ~ settled [m] s.
Proof.
  exists [MConv [(97, 98)]%N; MConv [(98, 97)]%N], (lit "a"), (MConv [(97, 98)]%N). split; [|split; [left; reflexivity|]].
  - intros out. rewrite (does_two _ _ _ _ (does_conv _) (does_conv _)). reflexivity.
  - intros H. specialize (H (lit "b")). rewrite (does_conv _ _ _) in H. discriminate (proj1 H eq_refl).
Qed.
Print Assumptions C93_settled_iff_refuted.

(** ** Presets and neologdn *)
Notation P := (map (conv1 PRESET)).
Notation N2 := neo_text.
Lemma P_pointwise s out : pointwise preset_rel s out <-> out = P s.
Proof.
  pose proof (chanoma_preset_eq no_order) as E.
  pose proof (preset_ok no_order _ E false no_order s out) as Q. rewrite <- Q, normalize_conv. split; [intros X; apply Ok_inj in X; symmetry; exact X|intros ->; reflexivity].
Qed.
Lemma P_idem s : P (P s) = P s.
Proof.
  pose proof (C08_lemma no_order _ (chanoma_preset_eq no_order) false no_order s (P s)) as Q. rewrite normalize_conv in Q.
  destruct (Q eq_refl) as [_ E]. specialize (E false no_order). rewrite normalize_conv in E. apply Ok_inj in E. exact E.
Qed.
Lemma PN_comm s : P (N2 s) = N2 (P s).
Proof.
  assert (A : neologdn_result (map eqs s) (N2 (P s))).
  { apply preset_then_neo. exists (P s). split; [apply P_pointwise; reflexivity|apply neo_text_result; reflexivity]. }
  apply neo_then_preset in A as (mid & A & B). apply neo_text_result in A. subst mid. apply P_pointwise in B. symmetry. exact B.
Qed.
Lemma iter_P n s : n > 0 -> Nat.iter n P s = P s.
Proof.
  intros H. destruct n as [|n]; [lia|]. clear H. induction n as [|n IH]; [reflexivity|]. change (P (Nat.iter (S n) P s) = P s). rewrite IH. apply P_idem.
Qed.
Lemma iter_N n s : n > 1 -> Nat.iter n N2 s = N2 (N2 s).
Proof.
  intros H. destruct n as [|[|n]]; [lia|lia|]. clear H. induction n as [|n IH]; [reflexivity|].
  change (N2 (Nat.iter (S (S n)) N2 s) = N2 (N2 s)). rewrite IH. apply neo_thrice.
Qed.
Lemma iter_comm i s : N2 (Nat.iter i P s) = Nat.iter i P (N2 s).
Proof. induction i as [|i IH]; [reflexivity|]. cbn [Nat.iter]. change (N2 (P (Nat.iter i P s)) = P (Nat.iter i P (N2 s))). rewrite <- PN_comm, IH. reflexivity. Qed.
Lemma iter_comm' j i s : Nat.iter j N2 (Nat.iter i P s) = Nat.iter i P (Nat.iter j N2 s).
Proof.
  induction j as [|j IH]; [reflexivity|]. change (N2 (Nat.iter j N2 (Nat.iter i P s)) = Nat.iter i P (N2 (Nat.iter j N2 s))).
  rewrite IH. apply iter_comm.
Qed.
Lemma iter_shift {A} (f : A -> A) n x : Nat.iter n f (f x) = Nat.iter (S n) f x.
Proof. induction n as [|n IH]; [reflexivity|]. change (f (Nat.iter n f (f x)) = f (Nat.iter (S n) f x)). rewrite IH. reflexivity. Qed.
Lemma iter_plus {A} (f : A -> A) n m x : Nat.iter n f (Nat.iter m f x) = Nat.iter (n + m) f x.
Proof. induction n as [|n IH]; [reflexivity|]. change (f (Nat.iter n f (Nat.iter m f x)) = f (Nat.iter (n + m) f x)). rewrite IH. reflexivity. Qed.
Definition built_in (k : call) : Prop := k = UsePreset \/ k = UseNeologdn.
Definition neos (ks : list call) : nat := length (filter (fun k => match k with UseNeologdn => true | _ => false end) ks).
Lemma calls_fun ks : (forall k, In k ks -> built_in k) -> exists i, forall s out, effects ks s out <-> out = Nat.iter i P (Nat.iter (neos ks) N2 s).
Proof.
  induction ks as [|k ks IH]; intros H.
  - exists 0. intros s out. reflexivity.
  - destruct IH as (i & E); [intros x I; apply H; right; exact I|].
    destruct (H k (or_introl eq_refl)) as [->| ->].
    + exists (S i). change (neos (UsePreset :: ks)) with (neos ks). set (j := neos ks) in *.
      intros s out. cbn [effects call_effect]. split.
      * intros (mid & Q & R). apply P_pointwise in Q. subst mid. apply E in R. subst out. change (P s) with (Nat.iter 1 P s). rewrite iter_comm'.
        change (Nat.iter i P (P (Nat.iter j N2 s)) = Nat.iter (S i) P (Nat.iter j N2 s)). apply iter_shift.
      * intros ->. exists (P s). split; [apply P_pointwise; reflexivity|]. apply E. change (P s) with (Nat.iter 1 P s). rewrite iter_comm'.
        symmetry. change (Nat.iter i P (P (Nat.iter j N2 s)) = Nat.iter (S i) P (Nat.iter j N2 s)). apply iter_shift.
    + exists i. change (neos (UseNeologdn :: ks)) with (S (neos ks)). set (j := neos ks) in *.
      intros s out. cbn [effects call_effect]. split.
      * intros (mid & Q & R). apply neo_text_result in Q. subst mid. apply E in R. subst out. f_equal. apply iter_shift.
      * intros ->. exists (N2 s). split; [apply neo_text_result; reflexivity|]. apply E. f_equal. symmetry. apply iter_shift.
Qed.
Lemma neos_pos ks : neos ks > 0 <-> In UseNeologdn ks.
Proof.
  unfold neos. induction ks as [|k ks IH]; cbn [filter length In]; [split; [lia|tauto]|].
  destruct k; cbn [length]; rewrite <- IH; split; try (intros; right; assumption); try (intros [E|E]; [discriminate|exact E]); auto; lia.
Qed.
Lemma neos_app a b : neos (a ++ b) = neos a + neos b.
Proof. unfold neos. rewrite filter_app, app_length. reflexivity. Qed.
Lemma neos_one ks : neos ks <> 1 <-> forall a b, ks = a ++ UseNeologdn :: b -> In UseNeologdn (a ++ b).
Proof.
  split.
  - intros H a b ->. apply neos_pos. rewrite neos_app in *. change (neos (UseNeologdn :: b)) with (S (neos b)) in H. lia.
  - intros H E. assert (I : In UseNeologdn ks) by (apply neos_pos; lia). apply in_split in I as (a & b & ->).
    specialize (H a b eq_refl). apply neos_pos in H. rewrite neos_app in *. change (neos (UseNeologdn :: b)) with (S (neos b)) in E. lia.
Qed.
Lemma built_fun o ks c : (forall k, In k ks -> built_in k) -> run_calls o ks chanoma_new = Ok c -> exists i,
  forall s out, result c s out <-> out = Nat.iter i P (Nat.iter (neos ks) N2 s).
Proof.
  intros H E. destruct (calls_fun ks H) as (i & F). exists i. intros s out.
  rewrite (C30_lemma _ _ _ _ E). split.
  - intros (mid & Q & R). apply result_nil in Q. subst mid. apply F, R.
  - intros Q. exists s. split; [apply result_nil; reflexivity|]. apply F, Q.
Qed.
Lemma iter_both i j i' j' s : Nat.iter i P (Nat.iter j N2 (Nat.iter i' P (Nat.iter j' N2 s))) = Nat.iter (i + i') P (Nat.iter (j + j') N2 s).
Proof. rewrite iter_comm', !iter_plus. reflexivity. Qed.
Lemma passes_two c s out : passes c 2 s out -> exists mid, result c s mid /\ result c mid out.
Proof.
  intros H. inversion H as [|n s' mid o' H1 R E1 E2]; subst. inversion H1 as [|n s' mid' o' H2 R' E1 E2]; subst. inversion H2; subst. eauto.
Qed.
(** A Chanoma built from [use_preset] and [use_neologdn], in any order and number, settles after two passes... *)
Theorem C93_built_in : forall o ks c, (forall k, In k ks -> built_in k) -> run_calls o ks chanoma_new = Ok c ->
  forall s out, passes c 2 s out -> settled c out.
Proof.
  intros o ks c H E s out Q. destruct (built_fun o ks c H E) as (i & F). set (j := neos ks) in *.
  apply passes_two in Q as (mid & R' & R).
  apply F in R'. apply F in R. subst mid. subst out. set (t := Nat.iter i P (Nat.iter j N2 s)). intros out. rewrite F.
  assert (G : Nat.iter i P (Nat.iter j N2 (Nat.iter i P (Nat.iter j N2 t))) = Nat.iter i P (Nat.iter j N2 t)); [|rewrite G; reflexivity].
  unfold t. rewrite !iter_both.
  assert (A : forall t, Nat.iter (i + i + i) P t = Nat.iter (i + i) P t).
  { intros u. destruct i as [|i']; [reflexivity|]. rewrite !iter_P by lia. reflexivity. }
  rewrite A. f_equal. destruct j as [|j']; [reflexivity|]. rewrite !iter_N by lia. reflexivity.
Qed.
Print Assumptions C93_built_in.
(** ... and after one pass exactly if it was not built with [use_neologdn] exactly once. *)
Theorem C93_built_in_one_pass : forall o ks c, (forall k, In k ks -> built_in k) -> run_calls o ks chanoma_new = Ok c ->
  ((forall s out, result c s out -> settled c out) <-> forall a b, ks = a ++ UseNeologdn :: b -> In UseNeologdn (a ++ b)).
Proof.
  intros o ks c H E. destruct (built_fun o ks c H E) as (i & F). rewrite <- neos_one. set (j := neos ks) in *. split.
  - intros G J. specialize (G [0x30FC; 0x7E; 0x30FC]%N _ (proj2 (F _ _) eq_refl)).
    pose proof (proj1 (F _ _) (proj2 (G _) eq_refl)) as Q. clear G. rewrite J in Q. rewrite iter_both in Q. cbn [Nat.add] in Q.
    assert (X : exists i0, i0 <= 1 /\ forall t, Nat.iter i P t = Nat.iter i0 P t).
    { destruct i as [|i]; [exists 0; split; [lia|reflexivity]|]. exists 1. split; [lia|]. intros t. rewrite iter_P by lia. reflexivity. }
    destruct X as (i0 & L & X). assert (Y : forall t, Nat.iter (i + i) P t = Nat.iter i0 P t).
    { intros t. rewrite <- iter_plus, !X. rewrite iter_plus. destruct i0 as [|[|?]]; [reflexivity| |lia]. apply P_idem. }
    rewrite Y, X in Q. clear -Q L. destruct i0 as [|[|?]]; [| |lia]; revert Q; vm_compute; discriminate.
  - intros J s out R. apply F in R. subst out. intros out. rewrite F, iter_both.
    assert (G : Nat.iter (i + i) P (Nat.iter (j + j) N2 s) = Nat.iter i P (Nat.iter j N2 s)); [|rewrite G; reflexivity].
    assert (A : forall t, Nat.iter (i + i) P t = Nat.iter i P t).
    { intros t. destruct i as [|i']; [reflexivity|]. rewrite !iter_P by lia. reflexivity. }
    rewrite A. f_equal. destruct j as [|[|j']]; [reflexivity|lia|]. rewrite !iter_N by lia. reflexivity.
Qed.
Print Assumptions C93_built_in_one_pass.

(** ** Conversions and ligatures *)
(** A conversion may need any number of passes... *)
Definition chain (n : nat) : converter := map (fun i => (N.of_nat i, N.of_nat (S i))) (seq 0 n).
Lemma chain_conv n i : conv1 (chain n) (N.of_nat i) = if Nat.ltb i n then N.of_nat (S i) else N.of_nat i.
Proof.
  unfold conv1, conv_get. destruct (Nat.ltb_spec i n) as [L|L].
  - rewrite (hm_In_get N.eqb N.eqb_eq (N.of_nat i) (N.of_nat (S i))); [reflexivity| |].
    + unfold chain. rewrite map_map. cbn [fst]. apply FinFun.Injective_map_NoDup; [intros x y E; apply Nat2N.inj, E|apply seq_NoDup].
    + unfold chain. apply in_map_iff. exists i. split; [reflexivity|]. apply in_seq. lia.
  - destruct (hm_get N.eqb (N.of_nat i) (chain n)) as [t|] eqn:E; [|reflexivity]. exfalso.
    apply (hm_get_In N.eqb N.eqb_eq) in E. unfold chain in E. apply in_map_iff in E as (j & E & I). injection E as E _.
    apply Nat2N.inj in E. apply in_seq in I. lia.
Qed.
Lemma chain_passes n k out : k <= n -> (passes [MConv (chain n)] k [0%N] out <-> out = [N.of_nat k]).
Proof.
  revert out; induction k as [|k IH]; intros out L; split.
  - intros H. inversion H; subst. reflexivity.
  - intros ->. constructor.
  - intros H. inversion H as [|n' s' mid o' H1 R E1 E2]; subst. apply IH in H1; [|lia]. subst mid. apply (does_conv _ _ _) in R.
    cbn [map] in R. rewrite chain_conv in R. destruct (Nat.ltb_spec k n); [exact R|lia].
  - intros ->. econstructor; [apply IH; [lia|reflexivity]|]. apply (does_conv _ _ _). cbn [map]. rewrite chain_conv.
    destruct (Nat.ltb_spec k n); [reflexivity|lia].
Qed.
Theorem C93_conversion_passes_refuted : forall n, (N.of_nat n < 0xD800)%N -> exists cc s,
  NoDup (map fst cc) /\ (forall a b, In (a, b) cc -> is_scalar a = true /\ is_scalar b = true) /\
  (forall out, passes [MConv cc] n s out -> settled [MConv cc] out) /\
  forall k out, k < n -> passes [MConv cc] k s out -> ~ settled [MConv cc] out.
Proof.
  intros n L. exists (chain n), [0%N]. split.
  { unfold chain. rewrite map_map. cbn [fst]. apply FinFun.Injective_map_NoDup; [intros x y E; apply Nat2N.inj, E|apply seq_NoDup]. }
  split; [|split].
  - intros a b I. unfold chain in I. apply in_map_iff in I as (i & E & I). injection E as <- <-. apply in_seq in I.
    assert (S : forall x, (x < 0xD800)%N -> is_scalar x = true).
    { intros x Lx. unfold is_scalar. destruct (N.ltb_spec x 0xD800); [reflexivity|lia]. }
    split; apply S; lia.
  - intros out H. apply chain_passes in H; [|lia]. subst out. intros out. rewrite (does_conv _ _ _). cbn [map]. rewrite chain_conv.
    destruct (Nat.ltb_spec n n); [lia|]. reflexivity.
  - intros k out Lk H S. apply chain_passes in H; [|lia]. subst out. specialize (S [N.of_nat k]). rewrite (does_conv _ _ _) in S. cbn [map] in S.
    rewrite chain_conv in S. destruct (Nat.ltb_spec k n); [|lia]. pose proof (proj2 S eq_refl) as E. injection E as E. lia.
Qed.
Print Assumptions C93_conversion_passes_refuted.
(** ... or never settle, and a ligature may make every text longer. *)
Theorem C93_conversion_cycle_refuted : exists cc s, forall n out, passes [MConv cc] n s out -> ~ settled [MConv cc] out.
Proof.
  exists [(97, 98); (98, 97)]%N, (lit "a"). intros n out H. assert (G : out = lit "a" \/ out = lit "b").
  { remember (lit "a") as s eqn:Es in H. induction H as [s|n s mid out H IH R]; [left; exact Es|]. specialize (IH Es). subst s.
    apply (does_conv _ _ _) in R. destruct IH as [->| ->]; subst out; [right|left]; reflexivity. }
  intros S. specialize (S out). rewrite (does_conv _ _ _) in S. pose proof (proj2 S eq_refl) as E. destruct G as [->| ->]; discriminate.
Qed.
Print Assumptions C93_conversion_cycle_refuted.
Lemma doubling k : replaced (fun a b => a = lit "a" /\ b = lit "aa") (repeat 97%N k) (repeat 97%N (2 * k)).
Proof.
  induction k as [|k IH]; [constructor|]. replace (2 * S k) with (S (S (2 * k))) by lia. cbn [repeat].
  apply (rep_hit _ (lit "a") (lit "aa")); [discriminate|split; reflexivity|exact IH].
Qed.
Theorem C93_ligature_growth_refuted : exists l s, forall n out, passes [MLig l] n s out -> length out = 2 ^ n /\ ~ settled [MLig l] out.
Proof.
  exists [(lit "a", lit "aa")], (lit "a"). intros n out H.
  assert (D : forall k out, result [MLig [(lit "a", lit "aa")]] (repeat 97%N k) out -> out = repeat 97%N (2 * k)).
  { intros k o' (o & E). pose proof (proj2 (C20_lemma false o (lit "a") (lit "aa") _ _ ltac:(discriminate)) (doubling k)) as Q. apply Ok_inj. rewrite <- E. exact Q. }
  assert (G : forall t, t = lit "a" -> passes [MLig [(lit "a", lit "aa")]] n t out -> out = repeat 97%N (2 ^ n)).
  { clear H. intros t Et H. induction H as [t|n t mid out H IH R]; [exact Et|]. specialize (IH Et). subst mid. apply D in R. exact R. }
  specialize (G _ eq_refl H).
  split; [rewrite G, repeat_length; reflexivity|]. intros S. pose proof (proj2 (S out) eq_refl) as R. rewrite G in R. apply D in R.
  apply (f_equal (@length N)) in R. rewrite !repeat_length in R. pose proof (Nat.pow_nonzero 2 n). lia.
Qed.
Print Assumptions C93_ligature_growth_refuted.

(** Run reduction, dotted spaces and an elimination: the three passes over one text, and a fourth. *)
Example C93_case : let c := [MRed 0x30FC; MDot; MElim [98]]%N in
  normalize false no_order c [0x30FC; 98; 32; 98; 0x30FC]%N = Ok [0x30FC; 32; 0x30FC]%N /\
  normalize false no_order c [0x30FC; 32; 0x30FC]%N = Ok [0x30FC; 0x30FC]%N /\
  normalize false no_order c [0x30FC; 0x30FC]%N = Ok [0x30FC]%N /\ normalize false no_order c [0x30FC]%N = Ok [0x30FC]%N.
Proof. vm_compute. repeat split. Qed.
Example C93_built_in_case : exists c, run_calls no_order [UseNeologdn; UsePreset; UseNeologdn] chanoma_new = Ok c /\
  normalize false no_order c [0x30FC; 0x7E; 0x30FC; 0xFF1D]%N = Ok [0x30FC; 0x3D]%N.
Proof. exists [MNeo NEO; MConv PRESET; MNeo NEO]. split; vm_compute; reflexivity. Qed.
