(** Each modifier as a machine (for C108). *)
From Verif Require Import Base Utf8 StrOps Converter Eliminator Reducer Dotted TrimMod Ligature Neologdn ModifierKind ChanomaModel
  CharSpec Spec BaseFacts CharsetFacts ConverterFacts ConverterProps SimpleFacts SimpleProps LigFacts NeoFacts NeoProps PropsConverter PropsNeo PropsPipeline PropsLig
  CommProps EditFacts TableFacts SameSpec SameFacts SameNeo PropsSame Machines ShortSpec.
From Coq Require Import Lia.
Opaque neo_text.

(** ** Without memory *)
Lemma sized_hom (h : char -> str) (f : str -> str) : f [] = [] -> (forall c s, f (c :: s) = h c ++ f s) -> sized 1 f.
Proof.
  intros F0 F1. apply (sized_ext 1 (det (fun (u : unit) c => (u, h c)) (fun _ => []) tt)).
  - induction t as [|c t IH]; cbn [det fst snd]; [congruence|]. rewrite F1, IH. reflexivity.
  - apply (sized_det [tt]); [intros []; left; reflexivity|decide equality].
Qed.
Lemma sized_map g : sized 1 (map g).
Proof. apply (sized_hom (fun c => [g c])); reflexivity. Qed.
Lemma sized_filter p : sized 1 (filter p).
Proof. apply (sized_hom (fun c => if p c then [c] else [])); [reflexivity|]. intros c s. cbn [filter]. destruct (p c); reflexivity. Qed.

(** ** Run reduction *)
Lemma sized_red k : sized 2 (red_rec k false).
Proof.
  set (step := fun (b : bool) c => if N.eqb k c then (true, if b then [] else [c]) else (false, [c])).
  apply (sized_ext 2 (det step (fun _ => []) false)).
  - generalize false. intros b t. revert b. induction t as [|c t IH]; intros b; cbn [det red_rec]; [reflexivity|].
    rewrite IH. unfold step. destruct (N.eqb k c); cbn [fst snd]; [destruct b|]; reflexivity.
  - apply (sized_det [true; false]); [intros []; cbn; tauto|decide equality].
Qed.

(** ** Dotted-space elimination *)
Inductive dotted_state := After | Elsewhere | Waiting.
Lemma sized_dot : sized 3 (dot_rec SPACE false).
Proof.
  set (step := fun (q : dotted_state) c =>
    if N.eqb c SPACE then (match q with Elsewhere => Elsewhere | _ => Waiting end, [])
    else (if is_ascii_alphanumeric c then After else Elsewhere,
          (match q with Waiting => if is_ascii_alphanumeric c then [SPACE] else [] | _ => [] end) ++ [c])).
  set (q_of := fun p (sp : bool) => if sp then Waiting else if is_ascii_alphanumeric p then After else Elsewhere).
  apply (sized_ext 3 (det step (fun _ => []) Elsewhere)).
  - assert (G : forall t p sp, det step (fun _ => []) (q_of p sp) t = dot_rec p sp t).
    { assert (E : forall p sp c, step (q_of p sp) c = if N.eqb c SPACE then (q_of c (if is_ascii_alphanumeric p then true else sp), [])
          else (q_of c false, (if sp then (if is_ascii_alphanumeric c then [SPACE] else []) else []) ++ [c])).
      { intros p sp c. unfold step, q_of. destruct (N.eqb_spec c SPACE) as [->|N]; [destruct sp, (is_ascii_alphanumeric p); reflexivity|].
        destruct sp; [reflexivity|]. destruct (is_ascii_alphanumeric p); reflexivity. }
      induction t as [|c t IH]; intros p sp; cbn [det dot_rec]; [reflexivity|]. rewrite E. destruct (N.eqb c SPACE); cbn [fst snd]; rewrite IH; [reflexivity|].
      rewrite <- app_assoc. reflexivity. }
    intros t. apply (G t SPACE false).
  - apply (sized_det [After; Elsewhere; Waiting]); [intros []; cbn; tauto|decide equality].
Qed.

(** ** Trimming: the machine guesses which character is the last that is not a space *)
Inductive trim_state := Before | Middle | Behind.
Definition trim_tr (q : trim_state) (c : char) (w : str) (q' : trim_state) : Prop :=
  match q, q' with
  | Before, Before => c = space /\ w = []
  | Before, _ => c <> space /\ w = [c]
  | Middle, Middle => w = [c]
  | Middle, Behind => c <> space /\ w = [c]
  | Behind, Behind => c = space /\ w = []
  | _, _ => False
  end.
Definition trim_machine : machine.
Proof.
  refine {| st := trim_state; sts := [Before; Middle; Behind]; st_dec := ltac:(decide equality); ini := Before; tr := trim_tr;
    fin := fun q w => q <> Middle /\ w = [] |}; [left; reflexivity|intros ? ? ? []; cbn; tauto].
Defined.
Lemma trim_behind t : forall out, @acc trim_machine Behind t out <-> out = [] /\ exists n, t = repeat space n.
Proof.
  induction t as [|c t IH]; intros out; cbn [acc].
  - cbn. split; [intros [_ ->]; split; [reflexivity|exists 0; reflexivity]|intros [-> _]; split; [discriminate|reflexivity]].
  - split.
    + intros (w & [] & o & T & A & ->); cbn in T; try contradiction. destruct T as [-> ->]. apply IH in A as [-> (n & ->)]. split; [reflexivity|]. exists (S n). reflexivity.
    + intros [-> (n & E)]. destruct n as [|n]; [discriminate E|]. injection E as -> E. exists [], Behind, []. cbn. split; [auto|]. split; [|reflexivity]. apply IH. eauto.
Qed.
Lemma trim_middle t : forall out, @acc trim_machine Middle t out <-> hd_error (rev out) <> Some space /\ out <> [] /\ exists n, t = out ++ repeat space n.
Proof.
  induction t as [|c t IH]; intros out; cbn [acc].
  - cbn. split; [intros [H _]; congruence|]. intros (_ & N & n & E). destruct out; [congruence|discriminate E].
  - split.
    + intros (w & [] & o & T & A & ->); cbn in T; try contradiction.
      * subst w. apply IH in A as (H & N & n & ->). split; [|split; [discriminate|exists n; reflexivity]]. cbn [app rev]. destruct (rev o) as [|x r] eqn:E; [|exact H]. destruct o; [congruence|]. apply (f_equal (@length _)) in E. rewrite rev_length in E. discriminate E.
      * destruct T as [N ->]. apply trim_behind in A as [-> (n & ->)]. cbn [app rev hd_error]. split; [congruence|]. split; [discriminate|]. exists n. reflexivity.
    + intros (H & N & n & E). destruct out as [|x out]; [congruence|]. cbn [app] in E. injection E as <- E. destruct out as [|y out].
      * exists [c], Behind, []. cbn in H. cbn. split; [split; [congruence|reflexivity]|]. split; [|reflexivity]. apply trim_behind. eauto.
      * exists [c], Middle, (y :: out). cbn. split; [reflexivity|]. split; [|reflexivity]. apply IH. split; [|split; [discriminate|eauto]].
        cbn [rev] in *. destruct (rev out) as [|z r]; cbn [app hd_error] in *; exact H.
Qed.
Lemma trim_before t : forall out, @acc trim_machine Before t out <-> trimmed t out.
Proof.
  assert (Z : forall n s, repeat space n ++ space :: s = repeat space (S n) ++ s) by (induction n as [|n IH]; intros s; cbn [repeat app]; [reflexivity|rewrite IH; reflexivity]).
  induction t as [|c t IH]; intros out; cbn [acc].
  - cbn. split.
    + intros [_ ->]. split; [discriminate|]. split; [discriminate|]. exists 0, 0. reflexivity.
    + intros (_ & _ & a & b & E). split; [discriminate|]. symmetry in E. apply app_eq_nil in E as [_ E]. apply app_eq_nil in E. apply E.
  - split.
    + intros (w & [] & o & T & A & ->); cbn in T.
      * destruct T as [-> ->]. apply IH in A as (H1 & H2 & a & b & ->). split; [exact H1|]. split; [exact H2|]. exists (S a), b. reflexivity.
      * destruct T as [N ->]. apply trim_middle in A as (H & No & n & ->). split; [cbn; congruence|]. split; [|exists 0, n; reflexivity].
        cbn [app rev]. destruct (rev o) as [|x r] eqn:E; [|exact H]. destruct o; [congruence|]. apply (f_equal (@length _)) in E. rewrite rev_length in E. discriminate E.
      * destruct T as [N ->]. apply trim_behind in A as [-> (n & ->)]. cbn. split; [cbn; congruence|]. split; [cbn; congruence|]. exists 0, n. reflexivity.
    + intros (H1 & H2 & a & b & E). destruct (N.eq_dec c space) as [->|N].
      * exists [], Before, out. cbn. split; [auto|]. split; [|reflexivity]. apply IH. destruct a as [|a].
        -- destruct out as [|x out]; [|cbn in E, H1; injection E as E _; congruence]. cbn [app repeat] in E. destruct b as [|b]; [discriminate E|]. injection E as E. split; [discriminate|]. split; [discriminate|]. exists 0, b. exact E.
        -- cbn [repeat app] in E. injection E as E. split; [exact H1|]. split; [exact H2|]. eauto.
      * destruct a as [|a]; [|cbn in E; injection E as E _; congruence]. cbn [repeat app] in E. destruct out as [|x out]; [destruct b; [discriminate E|injection E as E _; congruence]|].
        cbn [app] in E. injection E as <- E. destruct out as [|y out].
        -- exists [c], Behind, []. cbn. split; [auto|]. split; [|reflexivity]. apply trim_behind. eauto.
        -- exists [c], Middle, (y :: out). cbn. split; [auto|]. split; [|reflexivity]. apply trim_middle. split; [|split; [discriminate|eauto]].
           cbn [rev] in *. destruct (rev out) as [|z r]; cbn [app hd_error] in *; exact H2.
Qed.
Lemma sized_trim : sized 3 trim_modify.
Proof.
  exists trim_machine. split; [cbn; lia|]. intros t out. split.
  - intros A. apply trim_before in A. eapply trimmed_unique; [exact A|apply trim_modify_trimmed].
  - intros ->. apply trim_before, trim_modify_trimmed.
Qed.

(** ** Composing kana and sound marks: the machine guesses the mark *)
Inductive comp_state := Free (nv ns : bool) | Expect (semi : bool).
Section Comp.
  Context (base : char -> bool) (mate : char -> char -> option char) (mark : bool -> char).
  Hypothesis mate_mark : forall a c t, mate a c = Some t -> exists b, c = mark b.
  Definition has (a : char) (b : bool) : bool := match mate a (mark b) with Some _ => true | None => false end.
  Definition comp_tr (q : comp_state) (c : char) (w : str) (q' : comp_state) : Prop :=
    match q with
    | Free nv ns => (nv = true -> c <> mark false) /\ (ns = true -> c <> mark true) /\
        if base c then (w = [c] /\ q' = Free (has c false) (has c true)) \/ (exists b t, mate c (mark b) = Some t /\ w = [t] /\ q' = Expect b)
        else w = [c] /\ q' = Free false false
    | Expect b => c = mark b /\ w = [] /\ q' = Free false false
    end.
  Definition comp_all := [Free true true; Free true false; Free false true; Free false false; Expect true; Expect false].
  Definition comp_machine : machine.
  Proof.
    refine {| st := comp_state; sts := comp_all; st_dec := ltac:(decide equality; decide equality); ini := Free false false; tr := comp_tr;
      fin := fun q w => w = [] /\ match q with Free _ _ => True | Expect _ => False end |}.
    - cbn. tauto.
    - intros ? ? ? [[] []|[]]; cbn; tauto.
  Defined.
  Lemma has_no a c : (has a false = true -> c <> mark false) -> (has a true = true -> c <> mark true) -> mate a c = None.
  Proof.
    intros H1 H2. destruct (mate a c) as [t|] eqn:E; [|reflexivity]. destruct (mate_mark _ _ _ E) as (b & ->).
    destruct b; [destruct H2|destruct H1]; trivial; unfold has; rewrite E; reflexivity.
  Qed.
  (** What is read from the machine in each of its states. *)
  Lemma comp_sound t : 
    (forall out, @acc comp_machine (Free false false) t out -> out = compose base mate None t) /\
    (forall a out, @acc comp_machine (Free (has a false) (has a true)) t out -> a :: out = compose base mate (Some a) t) /\
    (forall a b x out, mate a (mark b) = Some x -> @acc comp_machine (Expect b) t out -> x :: out = compose base mate (Some a) t).
  Proof.
    induction t as [|c t (I1 & I2 & I3)].
    - repeat split.
      + intros out [-> _]. reflexivity.
      + intros a out [-> _]. reflexivity.
      + intros a b x out _ [_ []].
    - assert (F : forall w q o, (if base c then (w = [c] /\ q = Free (has c false) (has c true)) \/ (exists b x, mate c (mark b) = Some x /\ w = [x] /\ q = Expect b) else w = [c] /\ q = Free false false) ->
          @acc comp_machine q t o -> w ++ o = if base c then compose base mate (Some c) t else c :: compose base mate None t).
      { intros w q o T A. destruct (base c).
        - destruct T as [[-> ->]|(b & x & E & -> & ->)]; [apply (I2 c), A|apply (I3 c b x); assumption].
        - destruct T as [-> ->]. cbn [app]. f_equal. apply I1, A. }
      split; [|split].
      + intros out (w & q & o & T & A & ->). cbn [compose held app]. cbn in T. destruct T as (_ & _ & T). apply (F w q o T A).
      + intros a out (w & q & o & T & A & ->). cbn [compose held]. cbn in T. destruct T as (H1 & H2 & T). rewrite (has_no a c H1 H2). cbn [app]. f_equal. apply (F w q o T A).
      + intros a b x out E (w & q & o & T & A & ->). cbn in T. destruct T as (-> & -> & ->). cbn [compose app]. rewrite E. f_equal. apply I1, A.
  Qed.
  Lemma comp_complete t :
    @acc comp_machine (Free false false) t (compose base mate None t) /\
    (forall a, (exists out, a :: out = compose base mate (Some a) t /\ @acc comp_machine (Free (has a false) (has a true)) t out) \/
       exists b x out, mate a (mark b) = Some x /\ x :: out = compose base mate (Some a) t /\ @acc comp_machine (Expect b) t out).
  Proof.
    induction t as [|c t (I1 & I2)].
    - split; [cbn; auto|]. intros a. left. exists []. cbn. auto.
    - assert (F : exists w q o, (if base c then (w = [c] /\ q = Free (has c false) (has c true)) \/ (exists b x, mate c (mark b) = Some x /\ w = [x] /\ q = Expect b) else w = [c] /\ q = Free false false) /\
          @acc comp_machine q t o /\ (if base c then compose base mate (Some c) t else c :: compose base mate None t) = w ++ o).
      { destruct (base c).
        - destruct (I2 c) as [(o & E & A)|(b & x & o & E & E' & A)].
          + exists [c], (Free (has c false) (has c true)), o. auto.
          + exists [x], (Expect b), o. split; [right; eauto|]. auto.
        - exists [c], (Free false false), (compose base mate None t). auto. }
      destruct F as (w & q & o & T & A & E). split.
      + change (compose base mate None (c :: t)) with (if base c then compose base mate (Some c) t else c :: compose base mate None t). rewrite E. exists w, q, o. split; [|auto]. cbn. split; [discriminate|]. split; [discriminate|exact T].
      + intros a. cbn [compose held app]. destruct (mate a c) as [x|] eqn:M.
        * destruct (mate_mark _ _ _ M) as (b & ->). right. exists b, x, (compose base mate None t). split; [exact M|]. split; [reflexivity|].
          exists [], (Free false false), (compose base mate None t). cbn. auto.
        * left. exists (w ++ o). split; [rewrite <- E; reflexivity|]. exists w, q, o. split; [|auto]. cbn.
          split; [|split; [|exact T]]; intros H ->; unfold has in H; rewrite M in H; discriminate H.
  Qed.
  Lemma sized_compose : sized 6 (compose base mate None).
  Proof.
    exists comp_machine. split; [cbn; lia|]. intros t out. split; [apply comp_sound|]. intros ->. apply comp_complete.
  Qed.
End Comp.

(** ** Neologdn *)
Definition mark_of (semi : bool) : char := if semi then semivoiced_mark else voiced_mark.
Lemma sized_neo : sized 36 neo_text.
Proof.
  apply (sized_ext 36 (fun s => compose is_base mate_of None (filter not_tilde (dot_rec SPACE false (red_rec prolonged_mark false (neo_conv_text s)))))).
  { intros s. rewrite run_of. reflexivity. }
  apply (sized_comp 6 6 (fun s => filter not_tilde (dot_rec SPACE false (red_rec prolonged_mark false (neo_conv_text s))))).
  - apply (sized_comp 6 1 (fun s => dot_rec SPACE false (red_rec prolonged_mark false (neo_conv_text s)))); [|apply sized_filter].
    apply (sized_comp 2 3 (fun s => red_rec prolonged_mark false (neo_conv_text s))); [|apply sized_dot].
    apply (sized_comp 1 2 neo_conv_text); [apply sized_map|apply sized_red].
  - apply (sized_compose is_base mate_of mark_of).
    intros a c t H. apply mate_of_iff in H. destruct H as [[-> _]|[-> _]]; [exists false|exists true]; reflexivity.
Qed.

(** ** Ligatures: the machine guesses where a key begins and keeps the keys that must not follow *)
Fixpoint tails (k : str) : list str := match k with [] => [] | _ :: r => k :: tails r end.
Lemma tails_in k x : In x (tails k) -> x <> [] /\ (forall c r, x = c :: r -> r = [] \/ In r (tails k)).
Proof.
  induction k as [|d k IH]; cbn [tails]; [intros []|]. intros [<-|H].
  - split; [discriminate|]. intros c r E. injection E as _ <-. destruct k as [|e k]; [left; reflexivity|right; right; left; reflexivity].
  - destruct (IH H) as [N T]. split; [exact N|]. intros c r E. destruct (T c r E) as [T'|T']; [left; exact T'|right; right; exact T'].
Qed.
Lemma tails_length k : length (tails k) = length k.
Proof. induction k as [|d k IH]; cbn [tails length]; [reflexivity|]. rewrite IH. reflexivity. Qed.
Fixpoint sublists {A} (l : list A) : list (list A) := match l with [] => [[]] | x :: r => map (cons x) (sublists r) ++ sublists r end.
Lemma sublists_length {A} (l : list A) : length (sublists l) = 2 ^ length l.
Proof. induction l as [|x l IH]; [reflexivity|]. cbn [sublists length Nat.pow]. rewrite app_length, map_length, IH. lia. Qed.
Lemma filter_sublist {A} (p : A -> bool) l : In (filter p l) (sublists l).
Proof. induction l as [|x l IH]; cbn [filter sublists]; [left; reflexivity|]. apply in_or_app. destruct (p x); [left; apply in_map, IH|right; exact IH]. Qed.
Section Lig.
  Context (l : list (str * str)).
  Hypothesis keys_ne : forall k v, In (k, v) l -> k <> [].
  Definition sufs : list str := flat_map (fun e => tails (fst e)) l.
  Lemma sufs_ne x : In x sufs -> x <> [].
  Proof. intros H. apply in_flat_map in H as (e & _ & H). apply tails_in in H. apply H. Qed.
  Lemma sufs_tail c r : In (c :: r) sufs -> r = [] \/ In r sufs.
  Proof. intros H. apply in_flat_map in H as (e & I & H). apply tails_in in H as [_ T]. destruct (T c r eq_refl) as [->|H]; [left; reflexivity|]. right. apply in_flat_map. eauto. Qed.
  Lemma keys_sufs k : In k (map fst l) -> In k sufs.
  Proof.
    intros H. apply in_map_iff in H as ([k' v] & <- & I). apply in_flat_map. exists (k', v). split; [exact I|]. cbn [fst]. pose proof (keys_ne _ _ I). destruct k'; [congruence|]. left. reflexivity.
  Qed.
  (** What must not follow after [c] if nothing of [F] may follow now. *)
  Definition next (F : list str) (c : char) : list str := filter (fun x => existsb (str_eqb (c :: x)) F) sufs.
  Lemma next_in F c x : incl F sufs -> x <> [] -> (In x (next F c) <-> In (c :: x) F).
  Proof.
    intros I N. unfold next. rewrite filter_In, existsb_exists. split.
    - intros (_ & y & H & E). apply str_eqb_eq in E. subst y. exact H.
    - intros H. split; [destruct (sufs_tail c x (I _ H)); [contradiction|assumption]|]. exists (c :: x). split; [exact H|]. apply str_eqb_eq. reflexivity.
  Qed.
  Lemma next_sufs F c : incl (next F c) sufs.
  Proof. intros x H. apply filter_In in H. apply H. Qed.
  Definition blocked (F : list str) (t : str) : Prop := forall x, In x F -> ~ prefix_of x t.
  Lemma blocked_cons F c t : incl F sufs -> (blocked F (c :: t) <-> ~ In [c] F /\ blocked (next F c) t).
  Proof.
    intros I. split.
    - intros B. split; [intros H; apply (B _ H); exists t; reflexivity|]. intros x H (r & E).
      assert (N : x <> []) by (apply sufs_ne, (next_sufs F c), H). apply (next_in F c x I N) in H. apply (B _ H). exists r. cbn. congruence.
    - intros [N B] x H (r & E). pose proof (sufs_ne _ (I _ H)) as Nx. destruct x as [|d x]; [congruence|]. cbn [app] in E. injection E as <- E.
      destruct x as [|e x]; [contradiction|]. apply (B (e :: x)); [|exists r; exact E]. apply next_in; [exact I|discriminate|exact H].
  Qed.
  Definition lig_tr (q : str * list str) (c : char) (w : str) (q' : str * list str) : Prop :=
    let '(r, F) := q in let '(r', F') := q' in
    ~ In [c] F /\
    ((r = c :: r' /\ w = [] /\ F' = next F c) \/
     (r = [] /\ r' = [] /\ w = [c] /\ ~ In [c] (map fst l) /\ F' = next (F ++ map fst l) c) \/
     (r = [] /\ In (c :: r', w) l /\ F' = next F c)).
  Definition lig_all : list (str * list str) := list_prod ([] :: sufs) (sublists sufs).
  Lemma lig_in q c w q' : In q lig_all -> lig_tr q c w q' -> In q' lig_all.
  Proof.
    destruct q as [r F], q' as [r' F']. intros I (_ & H). apply in_prod_iff in I as [I _]. apply in_prod.
    - destruct H as [(-> & _)|[(_ & -> & _)|(_ & H & _)]].
      + destruct I as [I|I]; [discriminate I|]. destruct (sufs_tail _ _ I) as [->|J]; [left; reflexivity|right; exact J].
      + left. reflexivity.
      + assert (J : In (c :: r') sufs) by (apply keys_sufs, in_map_iff; exists (c :: r', w); auto). destruct (sufs_tail _ _ J) as [->|K]; [left; reflexivity|right; exact K].
    - destruct H as [(_ & _ & ->)|[(_ & _ & _ & _ & ->)|(_ & _ & ->)]]; apply filter_sublist.
  Qed.
  Definition lig_machine : machine.
  Proof.
    refine {| st := str * list str; sts := lig_all; st_dec := ltac:(repeat decide equality); ini := ([], []); tr := lig_tr;
      fin := fun q w => fst q = [] /\ w = []; tr_in := lig_in |}.
    apply in_prod; [left; reflexivity|]. generalize sufs. clear. intros z. induction z as [|x r IH]; [left; reflexivity|]. apply in_or_app. right. exact IH.
  Defined.
  Lemma incl_keys F : incl F sufs -> incl (F ++ map fst l) sufs.
  Proof. intros I x H. apply in_app_or in H as [H|H]; [apply I, H|apply keys_sufs, H]. Qed.
  Lemma blocked_app F G t : blocked (F ++ G) t <-> blocked F t /\ blocked G t.
  Proof.
    split.
    - intros B. split; intros x H; apply B, in_or_app; auto.
    - intros [B B'] x H. apply in_app_or in H as [H|H]; auto.
  Qed.
  Lemma lig_acc t : forall r F out, incl F sufs ->
    (@acc lig_machine (r, F) t out <-> blocked F t /\ exists t', t = r ++ t' /\ replaced (rules l) t' out).
  Proof.
    induction t as [|c t IH]; intros r F out I; cbn [acc].
    - cbn. split.
      + intros [-> ->]. split; [|exists []; split; [reflexivity|constructor]]. intros x H (z & E). apply (sufs_ne x (I _ H)). symmetry in E. apply app_eq_nil in E. apply E.
      + intros (_ & t' & E & R). symmetry in E. apply app_eq_nil in E as [-> ->]. split; [reflexivity|]. clear - R. remember [] as e eqn:Ee in R. destruct R as [|k v s o N _ _|x s o _ _]; [reflexivity| |discriminate Ee]. destruct k; [destruct N; reflexivity|discriminate Ee].
    - rewrite (blocked_cons F c t I). split.
      + intros (w & [r' F'] & o & (N & T) & A & ->). apply IH in A; [|destruct T as [(_ & _ & ->)|[(_ & _ & _ & _ & ->)|(_ & _ & ->)]]; apply next_sufs]. destruct A as [B (t' & -> & R)].
        destruct T as [(-> & -> & ->)|[(-> & -> & -> & Nk & ->)|(-> & K & ->)]].
        * split; [auto|]. exists t'. auto.
        * assert (Bl : blocked (F ++ map fst l) (c :: t')) by (apply blocked_cons; [apply incl_keys, I|]; split; [intros H; apply in_app_or in H as [H|H]; contradiction|exact B]).
          apply blocked_app in Bl as [B1 B2]. split; [apply blocked_cons; assumption|]. exists (c :: t'). split; [reflexivity|]. cbn [app]. apply rep_miss; [|exact R].
          intros k v K. apply B2, in_map_iff. exists (k, v). auto.
        * split; [auto|]. exists ((c :: r') ++ t'). split; [reflexivity|]. apply rep_hit; [discriminate|exact K|exact R].
      + intros ((N & B) & t' & E & R). destruct r as [|d r].
        * cbn [app] in E. subst t'. inversion R as [|k v s o Nk K R' E E'|x s o M R' E E']; subst.
          -- destruct k as [|d k]; [congruence|]. cbn [app] in E. injection E as -> E. exists v, (k, next F c), o. split; [split; [exact N|right; right; auto]|]. split; [|reflexivity].
             apply IH; [apply next_sufs|]. split; [exact B|]. exists s. auto.
          -- exists [c], ([], next (F ++ map fst l) c), o.
             assert (Bl : blocked (F ++ map fst l) (c :: t)) by (apply blocked_app; split; [apply blocked_cons; auto|]; intros k H; apply in_map_iff in H as ([k' v] & <- & H); apply (M k' v H)).
             apply blocked_cons in Bl as [N' B']; [|apply incl_keys, I]. split; [split; [exact N|right; left; repeat split; auto; intros H; apply N', in_or_app; right; exact H]|]. split; [|reflexivity].
             apply IH; [apply next_sufs|]. split; [exact B'|]. exists t. auto.
        * cbn [app] in E. injection E as -> E. exists [], (r, next F d), out. split; [split; [exact N|left; auto]|]. split; [|reflexivity]. apply IH; [apply next_sufs|]. split; [exact B|]. eauto.
  Qed.
End Lig.
Lemma sufs_length l : length (sufs l) = key_total l.
Proof. unfold sufs, key_total. induction l as [|[k v] l IH]; [reflexivity|]. cbn [flat_map map list_sum fold_right fst]. rewrite app_length, tails_length, IH. reflexivity. Qed.
Lemma sized_lig l : NoDup (map fst l) -> non_interfering l -> sized (S (key_total l) * 2 ^ key_total l) (lig_modify o_id l).
Proof.
  intros D N. assert (K : forall k v, In (k, v) l -> k <> []) by (intros k v H; apply (proj1 N _ _ H)).
  exists (lig_machine l K). split.
  - etransitivity; [apply Nat.eq_le_incl, (prod_length ([] :: sufs l) (sublists (sufs l)))|]. rewrite sublists_length. cbn [length]. pose proof (sufs_length l) as Q. unfold str in *. rewrite !Q. apply Nat.le_refl.
  - intros t out. etransitivity; [apply (lig_acc l K t [] [] out); intros x []|]. split.
    + intros (_ & t' & -> & R). eapply replaced_det; [apply (rules_det l D N)|exact R|apply lig_replaced; assumption].
    + intros ->. split; [intros x []|]. exists t. split; [reflexivity|]. apply lig_replaced; assumption.
Qed.
