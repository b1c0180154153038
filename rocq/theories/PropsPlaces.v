(** C116: nothing changes places. *)
From Coq Require Import String.
From Verif Require Import Base BaseFacts StrOps Converter Eliminator Reducer Dotted Ligature TrimMod Neologdn ModifierKind ChanomaModel Spec NeoSpec
  CharsetFacts ConverterFacts SimpleFacts TableFacts NeoFacts NeoProps NeoMore SimpleProps PropsConverter PropsPipeline PropsNeo PropsNeoMore CommProps ThreeSpec PropsThree PlacesSpec.
From Coq Require Import Lia Permutation.
Local Open Scope string_scope.
Local Open Scope list_scope.
Opaque neo_text.

Lemma filter_part (f : char -> bool) s : part (filter f s) s.
Proof. induction s as [|x s IH]; cbn [filter]; [apply part_nil|]. destruct (f x); [apply part_take, IH|apply part_skip, IH]. Qed.
Lemma red_part k b s : part (red_rec k b s) s.
Proof. revert b. induction s as [|x s IH]; intros b; cbn [red_rec]; [apply part_nil|]. repeat match goal with |- context [if ?e then _ else _] => destruct e end; first [apply part_take, IH|apply part_skip, IH]. Qed.
Lemma undotted_part p s out : undotted p s out -> part out s.
Proof.
  induction 1 as [p|p x s out Hx H IH|p n s out Hn Hh Hp Hq H IH|p n s out Hn Hh Hp H IH].
  - apply part_nil.
  - apply part_take, IH.
  - destruct n as [|n]; [lia|]. cbn [repeat app]. apply part_take, part_repeat, IH.
  - apply part_repeat, IH.
Qed.
Lemma trim_part s : part (trim_modify s) s.
Proof.
  assert (H : trimmed s (trim_modify s)) by (apply (C17_lemma false no_order); apply normalize_trim). destruct H as (_ & _ & a & b & E). rewrite E at 2.
  apply part_repeat. rewrite <- (app_nil_r (trim_modify s)) at 1. apply part_app; [apply part_refl|apply part_none].
Qed.
(** The result has, in order, what the conversions make of some characters of the text. *)
Theorem C116_in_order : forall c, Forall simple c -> forall s out, result c s out -> exists t, part t s /\ Forall2 (carried c) t out.
Proof.
  induction 1 as [|m c M F IH]; intros s out R.
  - apply result_nil in R. subst. exists s. split; [apply part_refl|]. induction s; constructor; [constructor|assumption].
  - change (m :: c) with ([m] ++ c) in R. apply result_app in R as (mid & R1 & R2). destruct (IH mid out R2) as (t & P & Q).
    assert (K : (exists cc, m = MConv cc) \/ part mid s /\ (forall x, In x mid -> forall z, carried c x z -> carried (m :: c) x z)).
    { destruct M as [m [cc|el|k]| |].
      - left. exists cc. reflexivity.
      - right. apply does_elim in R1. subst mid. split; [apply filter_part|]. intros x I z Z. apply carried_elim; [|exact Z]. intros J. apply filter_In in I as [_ I].
        apply negb_true_iff in I. assert (mem N.eqb x el = true) by (apply (mem_In N.eqb N.eqb_eq), J). congruence.
      - right. apply does_red in R1. subst mid. split; [apply red_part|]. intros x _ z Z. apply carried_red, Z.
      - right. split; [|intros x _ z Z; apply carried_dot, Z]. destruct R1 as (o & R1). apply C15_lemma in R1. exact (undotted_part _ _ _ R1).
      - right. apply does_trim in R1. subst mid. split; [apply trim_part|]. intros x _ z Z. apply carried_trim, Z. }
    destruct K as [(cc & ->)|(K1 & K2)].
    + apply does_conv in R1. subst mid. clear - P Q.
      assert (X : exists t', part t' s /\ t = map (conv1 cc) t').
      { clear Q. remember (map (conv1 cc) s) as q eqn:E. revert s E. induction P as [|x u q P IH|x u q P IH]; intros [|y s] E; try discriminate E.
        - exists []. split; [apply part_nil|reflexivity].
        - cbn in E. injection E as -> E. destruct (IH s E) as (t' & A & B). exists t'. split; [apply part_skip, A|exact B].
        - cbn in E. injection E as -> E. destruct (IH s E) as (t' & A & B). exists (y :: t'). split; [apply part_take, A|]. cbn [map]. rewrite B. reflexivity. }
      destruct X as (t' & A & ->). exists t'. split; [exact A|]. clear A P. revert out Q. induction t' as [|x t' IH]; intros out Q; inversion Q; subst; constructor.
      * eapply carried_conv; [|eassumption]. apply conv_single. reflexivity.
      * apply IH. assumption.
    + exists t. split; [exact (part_trans _ _ _ P K1)|]. assert (I : incl t mid) by (intros x; apply part_in, P). clear - Q I K2.
      induction Q as [|x z t out Z Q IH]; constructor; [apply K2; [apply I; left; reflexivity|exact Z]|]. apply IH. intros y J. apply I. right. exact J.
Qed.
Print Assumptions C116_in_order.
Lemma part_places u t : part u t -> exists f : nat -> nat, (forall i j, i < j -> f i < f j) /\ forall i x, nth_error u i = Some x -> nth_error t (f i) = Some x.
Proof.
  induction 1 as [|x u t P (f & I & H)|x u t P (f & I & H)].
  - exists (fun i => i). split; [auto|]. intros [|i] x E; discriminate E.
  - exists (fun i => S (f i)). split; [intros i j L; specialize (I i j L); lia|]. intros i y E. exact (H i y E).
  - exists (fun i => match i with 0 => 0 | S i => S (f i) end). split.
    + intros [|i] [|j] L; try lia. specialize (I i j). lia.
    + intros [|i] y E; [exact E|exact (H i y E)].
Qed.
(** The same with numbers: the places the characters of the result come from increase. *)
Theorem C116_places : forall c, Forall simple c -> forall s out, result c s out -> exists f : nat -> nat, (forall i j, i < j -> f i < f j) /\
  forall i z, nth_error out i = Some z -> exists x, nth_error s (f i) = Some x /\ carried c x z.
Proof.
  intros c C s out R. destruct (C116_in_order c C s out R) as (t & P & F). destruct (part_places t s P) as (f & I & H). exists f. split; [exact I|].
  intros i z E. assert (X : exists x, nth_error t i = Some x /\ carried c x z).
  { clear - F E. revert i E. induction F as [|x y t out X F IH]; intros [|i] E; try discriminate E; cbn in *; [exists x; split; [reflexivity|congruence]|]. apply IH, E. }
  destruct X as (x & E' & X). exists x. split; [apply H, E'|exact X].
Qed.
Print Assumptions C116_places.
(** Without conversions, a result with all the characters is the text itself. *)
Theorem C116_no_reordering : forall c, (forall m, In m c -> simple m /\ forall cc, m <> MConv cc) -> forall s out, result c s out -> Permutation s out -> out = s.
Proof.
  intros c C s out R P. assert (S : Forall simple c) by (apply Forall_forall; intros m I; apply C, I).
  destruct (C116_in_order c S s out R) as (t & Q & F). assert (E : t = out).
  { assert (K : forall x z, carried c x z -> x = z).
    { assert (N : forall m, In m c -> forall cc, m <> MConv cc) by (intros m I; apply C, I). clear - N. intros x z H. induction H; auto; try (apply IHcarried; intros m I; apply N; right; exact I).
      destruct (N (MConv cc) (or_introl eq_refl) cc eq_refl). }
    clear - F K. induction F as [|x z t out X F IH]; [reflexivity|]. rewrite (K x z X), IH. reflexivity. }
  subst t. apply Permutation_length in P. apply part_same; [exact Q|lia].
Qed.
Print Assumptions C116_no_reordering.
(** Ligature maps can reorder. *)
Theorem C116_ligatures_refuted : exists l s out, constructible (MLig l) /\ result [MLig l] s out /\ Permutation s out /\ out <> s.
Proof.
  exists [(lit "ab", lit "ba")], (lit "ab"), (lit "ba"). split; [intros n E; discriminate E|]. split; [exists no_order; vm_compute; reflexivity|]. split; [apply perm_swap|discriminate].
Qed.
Print Assumptions C116_ligatures_refuted.

(** ** Neologdn *)
(** [thin p s out]: spaces, tildes, and prolonged sound marks behind another ([p] being the character before [s]), may be left out. *)
Definition blank (x : char) : Prop := x = space \/ In x tilde_variants.
Inductive thin (D : char -> Prop) : option char -> str -> str -> Prop :=
| thin_nil p : thin D p [] []
| thin_keep p x s out : thin D (Some x) s out -> thin D p (x :: s) (x :: out)
| thin_drop p x s out : D x -> thin D (Some x) s out -> thin D p (x :: s) out
| thin_mark s out : thin D (Some prolonged_mark) s out -> thin D (Some prolonged_mark) (prolonged_mark :: s) out.
Lemma collapsed_thin s out : collapsed prolonged_mark s out -> forall p, thin (fun _ => False) p s out.
Proof.
  induction 1 as [|x s out Hx H IH|n s out Hn Hh H IH]; intros p; [constructor|apply thin_keep, IH|].
  destruct n as [|n]; [lia|]. cbn [repeat app]. apply thin_keep. clear Hn. induction n as [|n IHn]; cbn [repeat app]; [apply IH|apply thin_mark, IHn].
Qed.
Inductive dropping (D : char -> Prop) : str -> str -> Prop :=
| dropping_nil : dropping D [] []
| dropping_keep x s out : dropping D s out -> dropping D (x :: s) (x :: out)
| dropping_drop x s out : D x -> dropping D s out -> dropping D (x :: s) out.
Lemma undotted_dropping p s out : undotted p s out -> dropping blank s out.
Proof.
  assert (R : forall n s out, dropping blank s out -> dropping blank (repeat space n ++ s) out).
  { intros n s0 out0 H. induction n as [|n IH]; [exact H|]. cbn [repeat app]. apply dropping_drop; [left; reflexivity|exact IH]. }
  induction 1 as [p|p x s out Hx H IH|p n s out Hn Hh Hp Hq H IH|p n s out Hn Hh Hp H IH].
  - constructor.
  - apply dropping_keep, IH.
  - destruct n as [|n]; [lia|]. cbn [repeat app]. apply dropping_keep, R, IH.
  - apply R, IH.
Qed.
Lemma tilde_dropping s : dropping blank s (filter not_tilde s).
Proof.
  induction s as [|x s IH]; cbn [filter]; [constructor|]. destruct (not_tilde x) eqn:E; [apply dropping_keep, IH|]. apply dropping_drop; [|exact IH]. right.
  unfold not_tilde in E. apply negb_false_iff in E. apply existsb_exists in E as (t & I & E). apply N.eqb_eq in E. subst t. exact I.
Qed.
Lemma dropping_trans D a b c : dropping D a b -> dropping D b c -> dropping D a c.
Proof.
  intros A. revert c. induction A as [|x a b A IH|x a b X A IH]; intros c B; [exact B| |apply dropping_drop; auto].
  inversion B; subst; [apply dropping_keep|apply dropping_drop]; auto.
Qed.
Lemma thin_dropping p a b c : thin (fun _ => False) p a b -> dropping blank b c -> thin blank p a c.
Proof.
  intros A. revert c. induction A as [p|p x a b A IH|p x a b [] A IH|a b A IH]; intros c B.
  - inversion B; subst. constructor.
  - inversion B; subst; [apply thin_keep|apply thin_drop]; auto.
  - apply thin_mark, IH, B.
Qed.
(** Before the next character kept there are only characters left out; after another than the mark, blanks. *)
Lemma thin_next p s x out : thin blank p s (x :: out) -> exists d r, s = d ++ x :: r /\ thin blank (Some x) r out /\
  Forall (fun z => blank z \/ z = prolonged_mark) d /\ (p <> Some prolonged_mark -> Forall blank d).
Proof.
  intros H. remember (x :: out) as q eqn:E. induction H as [p|p y s q' H IH|p y s q' Y H IH|s q' H IH].
  - discriminate E.
  - injection E as -> ->. exists [], s. repeat split; auto.
  - destruct (IH E) as (d & r & -> & T & F1 & F2). exists (y :: d), r. split; [reflexivity|]. split; [exact T|]. split; [constructor; auto|].
    intros _. constructor; [exact Y|]. apply F2. intros Q. injection Q as ->. destruct Y as [Y|Y]; [discriminate Y|]. cbn in Y. repeat (destruct Y as [Y|Y]; [discriminate Y|]). exact Y.
  - destruct (IH E) as (d & r & -> & T & F1 & F2). exists (prolonged_mark :: d), r. split; [reflexivity|]. split; [exact T|]. split; [constructor; auto|].
    intros N. destruct (N eq_refl).
Qed.
Lemma thin_end p s : thin blank p s [] -> Forall (fun z => blank z \/ z = prolonged_mark) s.
Proof. intros H. remember (@nil char) as q eqn:E. induction H; try discriminate E; constructor; auto. Qed.
Lemma base_not_mark a m t : composes a m t -> a <> prolonged_mark.
Proof.
  assert (K : forall l : list (char * char), existsb (fun q => N.eqb (fst q) prolonged_mark) l = false -> forall u, ~ In (prolonged_mark, u) l).
  { intros l E u I. assert (X : existsb (fun q => N.eqb (fst q) prolonged_mark) l = true) by (apply existsb_exists; exists (prolonged_mark, u); split; [exact I|reflexivity]). congruence. }
  intros [(_ & I & _)|(_ & I)] ->; revert I; apply K; vm_compute; reflexivity.
Qed.
Definition block1 (u : str) (y : char) : Prop := u = [y] \/ exists a mid b, u = a :: mid ++ [b] /\ composes a b y /\ Forall blank mid.
Lemma drops D B d s out : Forall D d -> in_order D B s out -> in_order D B (d ++ s) out.
Proof. induction 1 as [|x d X F IH]; intros H; [exact H|]. cbn [app]. apply io_drop; auto. Qed.
Lemma replaced_order c out : replaced composition c out -> forall p s, thin blank p s c -> in_order (fun z => blank z \/ z = prolonged_mark) block1 s out.
Proof.
  induction 1 as [|k v c out Hk (a & m & t & -> & -> & C) H IH|x c out Hm H IH]; intros p s T.
  - rewrite <- (app_nil_r s). apply drops; [exact (thin_end p s T)|constructor].
  - cbn [app] in T. apply thin_next in T as (d & r & -> & T & F & _). apply thin_next in T as (d' & r' & -> & T & _ & F').
    apply drops; [exact F|]. replace (a :: d' ++ m :: r') with ((a :: d' ++ [m]) ++ r') by (cbn; rewrite <- app_assoc; reflexivity).
    cbn [app]. change (a :: (d' ++ [m]) ++ r') with ((a :: d' ++ [m]) ++ r'). apply io_block; [|exact (IH _ _ T)].
    right. exists a, d', m. split; [reflexivity|]. split; [exact C|]. apply F'. pose proof (base_not_mark a m t C). congruence.
  - apply thin_next in T as (d & r & -> & T & F & _). apply drops; [exact F|]. change (x :: r) with ([x] ++ r). apply io_block; [left; reflexivity|exact (IH _ _ T)].
Qed.
Lemma order_back (D D' : char -> Prop) (B B' : str -> char -> Prop) (R : char -> char -> Prop) :
  (forall x y, R x y -> D y -> D' x) -> (forall u v y, Forall2 R u v -> B v y -> B' u y) ->
  forall a out, in_order D B a out -> forall s, Forall2 R s a -> in_order D' B' s out.
Proof.
  intros HD HB a out H. induction H as [|x a out X H IH|u y a out X H IH]; intros s F.
  - inversion F; subst. constructor.
  - inversion F; subst. apply io_drop; [eapply HD; eassumption|apply IH; assumption].
  - apply Forall2_app_inv_r in F as (u' & s' & F1 & F2 & ->). apply io_block; [eapply HB; eassumption|apply IH, F2].
Qed.
Lemma blank_back x y : converted x y -> blank y -> blank_or_tilde x.
Proof. intros C [->|I]; [left; exact C|right; exists y; auto]. Qed.
(** Each character of a neologdn result comes from a block of the text, the blocks being disjoint and in order; what is
    in no block is a space, a tilde or a prolonged sound mark. *)
Theorem C116_neologdn : forall o ch, chanoma_neologdn o = Ok ch -> forall dbg o' s out, normalize dbg o' ch s = Ok out ->
  in_order (fun x => blank_or_tilde x \/ converted x prolonged_mark) neo_block s out.
Proof.
  intros o ch H dbg o' s out E. apply (neo_ok o ch H) in E as (a & b & c & H1 & H2 & H3 & H4).
  assert (T : thin blank None a (filter not_tilde c)).
  { eapply thin_dropping; [apply collapsed_thin, H2|]. eapply dropping_trans; [exact (undotted_dropping _ _ _ H3)|apply tilde_dropping]. }
  apply (order_back (fun z => blank z \/ z = prolonged_mark) _ block1 _ converted) with (a := a).
  - intros x y C [Y|Y]; [left; exact (blank_back x y C Y)|right; subst; exact C].
  - intros u v y F [->|(p & mid & m & -> & C & M)].
    + inversion F as [|x ? u' ? X F']; subst. inversion F'; subst. apply nb_one, X.
    + inversion F as [|x ? u' ? X F']; subst. apply Forall2_app_inv_r in F' as (u1 & u2 & F1 & F2 & ->). inversion F2 as [|z ? u3 ? Z F3]; subst. inversion F3; subst.
      apply (nb_two x p u1 z m y); try assumption. clear - F1 M. induction F1 as [|x y u v X F IH]; [constructor|]. inversion M; subst. constructor; [eapply blank_back; eassumption|auto].
  - exact (replaced_order _ _ H4 None a T).
  - exact H1.
Qed.
Print Assumptions C116_neologdn.
(** Blocks with blanks in them do occur. *)
Example C116_case : carried [MConv [(97, 98)]%N; MElim [97%N]; MRed 98%N] 97%N 98%N /\
  (exists out, result [MConv [(97, 98)]%N; MElim [97%N]; MRed 98%N] (lit "abca") out /\ out = lit "bcb") /\
  exists o ch, chanoma_neologdn o = Ok ch /\ normalize false o ch [0x304B; 0x20; 0x7E; 0x309B]%N = Ok [0x304C]%N.
Proof.
  split; [apply (carried_conv _ _ _ 98%N); [apply conv_single; reflexivity|apply carried_elim; [cbn; intuition discriminate|apply carried_red, carried_end]]|]. split.
  - exists (lit "bcb"). split; [exists no_order; vm_compute; reflexivity|reflexivity].
  - exists no_order, [MNeo NEO]. rewrite chanoma_neologdn_eq. split; [reflexivity|]. vm_compute. reflexivity.
Qed.
