(** C115: the rows of a CSV configuration file. *)
From Coq Require Import String.
From Verif Require Import Base Corr File ModifierKind Configuration ChanomaModel Spec FileSpec PathSpec ConfigSpec BaseFacts PropsConverter PropsPipeline
  CommProps TableFacts PathProps ConfigProps PropsConfig RowsSpec.
From Coq Require Import Lia Permutation.
Local Open Scope string_scope.
Local Open Scope list_scope.
Local Arguments N.eqb !_ !_ : simpl nomatch.

(** ** What a row says *)
Definition send (row : list str) (x : char) : option char :=
  if existsb (fun f => match f with c :: _ => N.eqb c x | [] => false end) (removelast row) then hd_error (last row []) else None.
Lemma sends_send row x t : sends row x t <-> send row x = Some t.
Proof.
  unfold send. split.
  - intros (fs & f & g & -> & I). rewrite removelast_last, last_last. replace (existsb _ fs) with true; [reflexivity|].
    symmetry. apply existsb_exists. exists (x :: f). split; [exact I|apply N.eqb_refl].
  - destruct row as [|a row] using rev_ind; [discriminate|]. rewrite removelast_last, last_last.
    match goal with |- (if ?b then _ else _) = _ -> _ => destruct b eqn:E end; [|discriminate]. apply existsb_exists in E as ([|c f] & I & E); [discriminate|]. apply N.eqb_eq in E. subst c.
    destruct a as [|u g]; [discriminate|]. cbn. intros H. injection H as ->. exists row, f, g. auto.
Qed.
Lemma names_send row x : names row x <-> send row x <> None.
Proof.
  split.
  - intros (t & H). apply sends_send in H. congruence.
  - intros H. destruct (send row x) as [t|] eqn:E; [|congruence]. exists t. apply sends_send, E.
Qed.
Fixpoint say (rows : list (list str)) (x : char) : option char :=
  match rows with
  | [] => None
  | r :: rest => match say rest x with Some t => Some t | None => send r x end
  end.
Definition tgt (rows : list (list str)) (x : char) : char := match say rows x with Some t => t | None => x end.
Lemma say_none rows x : say rows x = None <-> forall r, In r rows -> ~ names r x.
Proof.
  induction rows as [|r rows IH]; cbn [say]; [split; [intros _ r []|reflexivity]|]. split.
  - intros H q [<-|I].
    + rewrite names_send. destruct (say rows x); [discriminate|]. tauto.
    + apply (proj1 IH); [|exact I]. destruct (say rows x); [discriminate|reflexivity].
  - intros H. rewrite (proj2 IH); [|intros q I; apply H; right; exact I]. specialize (H r (or_introl eq_refl)). rewrite names_send in H.
    destruct (send r x); [destruct H; discriminate|reflexivity].
Qed.
Lemma say_app a b x : say (a ++ b) x = match say b x with Some t => Some t | None => say a x end.
Proof. induction a as [|r a IH]; cbn [say app]; [destruct (say b x); reflexivity|]. rewrite IH. destruct (say b x); reflexivity. Qed.
Lemma say_some rows x t : say rows x = Some t <-> exists before row after, rows = before ++ row :: after /\ sends row x t /\ forall r, In r after -> ~ names r x.
Proof.
  split.
  - induction rows as [|r rows IH]; cbn [say]; [discriminate|]. destruct (say rows x) as [u|] eqn:E.
    + intros H. destruct (IH H) as (b & q & a & -> & S & N). exists (r :: b), q, a. auto.
    + intros H. exists [], r, rows. split; [reflexivity|]. split; [apply sends_send, H|apply say_none, E].
  - intros (b & q & a & -> & S & N). rewrite say_app. cbn [say]. rewrite (proj2 (say_none a x) N). apply sends_send in S. rewrite S. reflexivity.
Qed.
Lemma target_tgt rows x t : target rows x t <-> t = tgt rows x.
Proof.
  unfold tgt. split.
  - intros [b r a u E S N|N].
    + rewrite (proj2 (say_some rows x u)); [reflexivity|]. exists b, r, a. auto.
    + rewrite (proj2 (say_none rows x) N). reflexivity.
  - intros ->. destruct (say rows x) as [u|] eqn:E.
    + apply say_some in E as (b & r & a & E & S & N). exact (tg_row rows x b r a u E S N).
    + apply tg_stays. apply say_none, E.
Qed.
Lemma same_tgt a b : same_rows a b <-> forall x, tgt a x = tgt b x.
Proof.
  unfold same_rows. split.
  - intros H x. apply target_tgt. apply H. apply target_tgt. reflexivity.
  - intros H x t. rewrite !target_tgt, H. reflexivity.
Qed.

(** ** Rows and items *)
Definition items_of (row : list str) : list item := map (fun f => Item f (last row [])) (removelast row).
Lemma row_of_iff row part : row_of row part <-> row <> [] /\ part = items_of row.
Proof.
  unfold items_of. split.
  - intros (fs & t & -> & ->). rewrite removelast_last, last_last. split; [destruct fs; discriminate|reflexivity].
  - intros (H & ->). exists (removelast row), (last row []). split; [apply app_removelast_last, H|reflexivity].
Qed.
Lemma rows_items_iff rows items : rows_items rows items <-> ~ In [] rows /\ items = concat (map items_of rows).
Proof.
  split.
  - intros (parts & F & ->). induction F as [|r p rows parts H F IH]; [split; [intros []|reflexivity]|].
    apply row_of_iff in H as [H ->]. destruct IH as [I IH]. split; [intros [E|E]; [exact (H E)|exact (I E)]|]. cbn [map concat]. rewrite IH. reflexivity.
  - intros (N & ->). exists (map items_of rows). split; [|reflexivity]. induction rows as [|r rows IH]; [constructor|]. cbn [map]. constructor.
    + apply row_of_iff. split; [|reflexivity]. intros ->. apply N. left. reflexivity.
    + apply IH. intros I. apply N. right. exact I.
Qed.
Lemma usable_split (fs : list str) (g : str) : usable (fs ++ [g]) <-> no_empty_string (map (fun f => Item f g) fs).
Proof.
  unfold usable, no_empty_string. rewrite app_length. change (List.length [g]) with 1. rewrite Forall_map, Forall_forall. cbn [from to]. split.
  - intros [L|(L & N)] f I.
    + destruct fs; [destruct I|cbn [List.length] in L; lia].
    + split; intros ->; apply N; apply in_app_iff; [left; exact I|]. right. left. reflexivity.
  - intros F. destruct fs as [|f fs']; [left; reflexivity|right]. split; [cbn; lia|]. intros I. apply in_app_iff in I as [I|[I|[]]].
    + destruct (F [] I) as [X _]. apply X. reflexivity.
    + destruct (F f (or_introl eq_refl)) as [_ X]. apply X. exact I.
Qed.
Lemma usable_items row : row <> [] -> (usable row <-> no_empty_string (items_of row)).
Proof.
  destruct row as [|g fs] using rev_ind; [contradiction|]. intros _. unfold items_of. rewrite removelast_last, last_last. apply usable_split.
Qed.
Lemma usable_all rows : (~ In [] rows /\ no_empty_string (concat (map items_of rows))) <-> Forall usable rows.
Proof.
  induction rows as [|r rows IH]; cbn [map concat].
  - split; [constructor|]. intros _. split; [intros []|constructor].
  - unfold no_empty_string in *. rewrite Forall_app. split.
    + intros (N & F & F'). constructor.
      * apply usable_items; [intros ->; apply N; left; reflexivity|exact F].
      * apply IH. split; [intros I; apply N; right; exact I|exact F'].
    + intros H. inversion H as [|? ? U U']; subst. apply IH in U' as [N F].
      assert (R : r <> []) by (intros ->; destruct U as [U|[U _]]; cbn in U; lia).
      split; [intros [E|E]; [exact (R E)|exact (N E)]|]. split; [apply usable_items; assumption|exact F].
Qed.
Lemma last_match_cons it l x t : last_match (it :: l) x t <-> last_match l x t \/ (no_match l x /\ begins (from it) x /\ begins (to it) t).
Proof.
  split.
  - intros ([|a l1] & it' & l2 & E & B & B' & F); cbn in E; injection E as -> ->.
    + right. auto.
    + left. exists l1, it', l2. auto.
  - intros [(l1 & it' & l2 & -> & B)|(F & B & B')]; [exists (it :: l1), it', l2; auto|]. exists [], it, l. auto.
Qed.
Lemma last_match_app a b x t : last_match (a ++ b) x t <-> last_match b x t \/ (no_match b x /\ last_match a x t).
Proof.
  induction a as [|it a IH]; cbn [app].
  - split; [auto|]. intros [H|(_ & l1 & it & l2 & E & _)]; [exact H|]. destruct l1; discriminate E.
  - rewrite !last_match_cons, IH. unfold no_match. rewrite Forall_app. tauto.
Qed.
Lemma row_items row x : usable row -> (no_match (items_of row) x <-> send row x = None) /\ forall t, last_match (items_of row) x t <-> send row x = Some t.
Proof.
  intros U. assert (R : row <> []) by (intros ->; destruct U as [U|[U _]]; cbn in U; lia).
  assert (NE := proj1 (usable_items row R) U). unfold no_empty_string, items_of in NE. rewrite Forall_map in NE. unfold items_of, send. clear U R.
  set (fs := removelast row) in *. set (g := last row []) in *. clearbody fs g. induction fs as [|f fs IH]; cbn [map existsb].
  - split; [split; [reflexivity|constructor]|]. intros t. split; [|discriminate]. intros (l1 & it & l2 & E & _). destruct l1; discriminate E.
  - inversion NE as [|? ? [Nf Ng] NE']; subst. cbn [from to] in Nf, Ng. destruct (IH NE') as [IH1 IH2]. destruct g as [|u g]; [contradiction|]. destruct f as [|c f]; [contradiction|].
    assert (Q : begins (c :: f) x <-> (c =? x)%N = true).
    { rewrite N.eqb_eq. split; [intros (q & E); injection E; auto|]. intros ->. exists f. reflexivity. }
    split.
    + unfold no_match in *. rewrite Forall_cons_iff, IH1. cbn [from]. rewrite Q. destruct (c =? x)%N; cbn [orb]; [|].
      * split; [intros [X _]; destruct X; reflexivity|discriminate].
      * split; [tauto|]. intros H. split; [discriminate|exact H].
    + intros t. rewrite last_match_cons, IH1, IH2. cbn [from to]. rewrite Q. cbn [hd_error]. match goal with |- context [existsb ?h fs] => destruct (existsb h fs) end.
      * rewrite orb_true_r. split; [intros [H|(H & _)]; [exact H|discriminate]|auto].
      * rewrite orb_false_r. destruct (c =? x)%N.
        -- split; [intros [H|(_ & _ & q & H)]; [discriminate|congruence]|]. intros H. injection H as <-. right. split; [reflexivity|]. split; [reflexivity|exists g; reflexivity].
        -- split; [intros [H|(_ & H & _)]; discriminate|discriminate].
Qed.
Lemma say_items rows x : Forall usable rows -> (no_match (concat (map items_of rows)) x <-> say rows x = None) /\
  forall t, last_match (concat (map items_of rows)) x t <-> say rows x = Some t.
Proof.
  induction 1 as [|r rows U F [IH1 IH2]]; cbn [map concat say].
  - split; [split; [reflexivity|constructor]|]. intros t. split; [|discriminate]. intros (l1 & it & l2 & E & _). destruct l1; discriminate E.
  - destruct (row_items r x U) as [R1 R2]. split.
    + unfold no_match in *. rewrite Forall_app, IH1, R1. destruct (say rows x); [split; [intros [_ H]; discriminate H|discriminate]|]. tauto.
    + intros t. rewrite last_match_app, IH1, IH2, R2. destruct (say rows x) as [u|].
      * split; [intros [H|(H & _)]; [exact H|discriminate]|auto].
      * split; [intros [H|(_ & H)]; [discriminate|exact H]|auto].
Qed.

(** ** Loading *)
Lemma fields_inj (a b : list (list str)) : map CsvFields a = map CsvFields b -> b = a.
Proof. revert b. induction a as [|r a IH]; intros [|r' b] T; try discriminate; [reflexivity|]. cbn in T. injection T as <- T. f_equal. apply IH, T. Qed.
(** A CSV file loads exactly if its rows below the first are usable... *)
Theorem C115_loads : forall o w p rows, csv_file w p rows -> ((exists c, from_config_file o w p = Ok c) <-> Forall usable rows).
Proof.
  intros o w p rows (X & h & W & H). split.
  - intros (c & E). apply C44_ok in E as (_ & e & E & _). destruct E as [recs rows' items X' W' H' T R N|data items effs X' _ _ _ _].
    + rewrite W in W'. injection W' as <-. cbn [tl] in T.
      apply fields_inj in T.
      subst rows'. apply rows_items_iff in R as [I ->]. apply usable_all. auto.
    + exfalso. apply ext_csv_iff in X. assert (Y := proj2 (ext_yaml_iff p) X'). congruence.
  - intros U. apply usable_all in U as [I N]. apply (C44_if o w p (pointwise (last_match (concat (map items_of rows))))).
    apply (fe_csv w p _ rows _ X W); [cbn; congruence|reflexivity|apply rows_items_iff; auto|exact N].
Qed.
Print Assumptions C115_loads.
Lemma pointwise_tgt (R : char -> char -> Prop) rows : (forall x t, R x t <-> say rows x = Some t) -> forall s out, pointwise R s out <-> out = map (tgt rows) s.
Proof.
  intros H s out. unfold pointwise. split.
  - intros F. induction F as [|c d s out D F IH]; [reflexivity|]. cbn [map]. rewrite IH. f_equal. unfold tgt. destruct D as [D|[-> D]].
    + apply H in D. rewrite D. reflexivity.
    + destruct (say rows c) as [u|] eqn:E; [|reflexivity]. destruct (D u). apply H, E.
  - intros ->. induction s as [|c s IH]; cbn [map]; constructor; [|exact IH]. unfold tgt. destruct (say rows c) as [u|] eqn:E; [left; apply H, E|].
    right. split; [reflexivity|]. intros t K. apply H in K. congruence.
Qed.
Lemma csv_result o w p rows c : csv_file w p rows -> from_config_file o w p = Ok c -> forall s out, result c s out <-> out = map (tgt rows) s.
Proof.
  intros C E. pose proof (proj1 (C115_loads o w p rows C) (ex_intro _ c E)) as U. destruct C as (X & h & W & H).
  apply C44_ok in E as (_ & e & E & R). destruct E as [recs rows' items X' W' H' T Q N|data items effs X' _ _ _ _].
  - rewrite W in W'. injection W' as <-. cbn [tl] in T. apply fields_inj in T. subst rows'. apply rows_items_iff in Q as [_ ->].
    intros s out. rewrite R. apply pointwise_tgt. intros x t. apply (say_items rows x U).
  - exfalso. apply ext_csv_iff in X. assert (Y := proj2 (ext_yaml_iff p) X'). congruence.
Qed.
(** ... and then replaces every character by its target. *)
Theorem C115_effect : forall o w p rows c, csv_file w p rows -> from_config_file o w p = Ok c ->
  forall s out, result c s out <-> Forall2 (target rows) s out.
Proof.
  intros o w p rows c C E s out. rewrite (csv_result o w p rows c C E). split.
  - intros ->. induction s as [|x s IH]; cbn [map]; constructor; [apply target_tgt; reflexivity|exact IH].
  - induction 1 as [|x t s out T F IH]; [reflexivity|]. apply target_tgt in T. cbn [map]. congruence.
Qed.
Print Assumptions C115_effect.
(** Two CSV files do the same to every text exactly if their rows say the same. *)
Theorem C115_same_iff : forall o w p rows c o' w' p' rows' c', csv_file w p rows -> from_config_file o w p = Ok c ->
  csv_file w' p' rows' -> from_config_file o' w' p' = Ok c' ->
  ((forall s out, result c s out <-> result c' s out) <-> same_rows rows rows').
Proof.
  intros o w p rows c o' w' p' rows' c' C E C' E'. rewrite same_tgt. split.
  - intros H x. assert (K : [tgt rows x] = map (tgt rows') [x]); [|cbn in K; congruence].
    apply (csv_result o' w' p' rows' c' C' E'), H, (csv_result o w p rows c C E). reflexivity.
  - intros H s out. rewrite (csv_result o w p rows c C E), (csv_result o' w' p' rows' c' C' E'). rewrite (map_ext _ _ H). reflexivity.
Qed.
Print Assumptions C115_same_iff.

(** ** Editing *)
Lemma named b x : (exists q, In q b /\ names q x) <-> say b x <> None.
Proof.
  split.
  - intros (q & I & N) H. exact (proj1 (say_none b x) H q I N).
  - induction b as [|r b IH]; cbn [say]; [congruence|]. destruct (say b x) as [u|] eqn:E.
    + intros _. destruct IH as (q & I & N); [discriminate|]. exists q. split; [right; exact I|exact N].
    + intros H. exists r. split; [left; reflexivity|]. apply names_send, H.
Qed.
(** Rows added at the end override. *)
Theorem C115_append : forall a b x t, target (a ++ b) x t <->
  ((exists q, In q b /\ names q x) /\ target b x t) \/ ((forall q, In q b -> ~ names q x) /\ target a x t).
Proof.
  intros a b x t. rewrite named, <- say_none, !target_tgt. unfold tgt. rewrite say_app. destruct (say b x) as [u|].
  - split; [intros ->; left; split; [discriminate|reflexivity]|]. intros [[_ H]|[H _]]; [exact H|discriminate].
  - split; [intros ->; right; auto|]. intros [[H _]|[_ H]]; [congruence|exact H].
Qed.
Print Assumptions C115_append.
(** Two neighbouring rows can be exchanged exactly if they contradict each other only about characters a later row names. *)
Theorem C115_exchange : forall a r r' b, same_rows (a ++ r :: r' :: b) (a ++ r' :: r :: b) <->
  forall x t t', sends r x t -> sends r' x t' -> t = t' \/ exists q, In q b /\ names q x.
Proof.
  intros a r r' b. rewrite same_tgt. unfold tgt. split.
  - intros H x t t' S S'. specialize (H x). rewrite !say_app in H. cbn [say] in H. apply sends_send in S, S'. rewrite S, S' in H.
    destruct (say b x) as [u|] eqn:E; [right; apply named; congruence|left; congruence].
  - intros H x. rewrite !say_app. cbn [say]. destruct (say b x) as [u|] eqn:E; [reflexivity|].
    destruct (send r x) as [t|] eqn:S, (send r' x) as [t'|] eqn:S'; try reflexivity.
    apply sends_send in S, S'. destruct (H x t t' S S') as [->|N]; [reflexivity|]. apply named in N. congruence.
Qed.
Print Assumptions C115_exchange.
(** A row can be left out exactly if each character it names is named later, or has the same target without it. *)
Theorem C115_leave_out : forall a r b, same_rows (a ++ r :: b) (a ++ b) <->
  forall x t, sends r x t -> target a x t \/ exists q, In q b /\ names q x.
Proof.
  intros a r b. rewrite same_tgt. unfold tgt. split.
  - intros H x t S. specialize (H x). rewrite !say_app in H. cbn [say] in H. apply sends_send in S. rewrite S in H.
    destruct (say b x) as [u|] eqn:E; [right; apply named; congruence|left]. apply target_tgt. unfold tgt. exact H.
  - intros H x. rewrite !say_app. cbn [say]. destruct (say b x) as [u|] eqn:E; [reflexivity|]. destruct (send r x) as [t|] eqn:S; [|reflexivity].
    apply sends_send in S. destruct (H x t S) as [T|N]; [|apply named in N; congruence]. apply target_tgt in T. exact T.
Qed.
Print Assumptions C115_leave_out.
Lemma say_in rows x t : say rows x = Some t -> exists r, In r rows /\ sends r x t.
Proof. intros H. apply say_some in H as (b & r & a & -> & S & _). exists r. split; [apply in_elt|exact S]. Qed.
(** The rows may be put in any order exactly if no two of them contradict each other. *)
Theorem C115_any_order : forall rows, (forall rows', Permutation rows rows' -> same_rows rows rows') <->
  forall r r' x t t', In r rows -> In r' rows -> sends r x t -> sends r' x t' -> t = t'.
Proof.
  intros rows. split.
  - intros H. assert (K : forall r x t, In r rows -> sends r x t -> t = tgt rows x).
    { intros r x t I S. apply in_split in I as (l1 & l2 & E).
      assert (P : Permutation rows ((l1 ++ l2) ++ [r])) by (rewrite E; rewrite <- Permutation_middle; apply Permutation_cons_append).
      specialize (H _ P). rewrite same_tgt in H. rewrite H. unfold tgt. rewrite say_app. cbn [say]. apply sends_send in S. rewrite S. reflexivity. }
    intros r r' x t t' I I' S S'. rewrite (K r x t I S), (K r' x t' I' S'). reflexivity.
  - intros H rows' P. apply same_tgt. intros x. unfold tgt. destruct (say rows x) as [t|] eqn:E, (say rows' x) as [t'|] eqn:E'; try reflexivity.
    + apply say_in in E as (r & I & S). apply say_in in E' as (r' & I' & S'). apply (H r r' x t t'); try assumption. exact (Permutation_in _ (Permutation_sym P) I').
    + exfalso. apply say_in in E as (r & I & S). apply (proj1 (say_none rows' x) E' r (Permutation_in _ P I)). exists t. exact S.
    + exfalso. apply say_in in E' as (r & I & S). apply (proj1 (say_none rows x) E r (Permutation_in _ (Permutation_sym P) I)). exists t'. exact S.
Qed.
Print Assumptions C115_any_order.
(** Two files used one after the other are one file with all the rows exactly if the second leaves alone what the first writes for
    a character the second does not name, and treats it as the character itself if it does. *)
Theorem C115_two_files : forall o w p a c q b d r e, csv_file w p a -> from_config_file o w p = Ok c -> csv_file w q b -> from_config_file o w q = Ok d ->
  csv_file w r (a ++ b) -> from_config_file o w r = Ok e ->
  ((forall s out, result (c ++ d) s out <-> result e s out) <->
   forall x t, target a x t -> ((forall z, In z b -> ~ names z x) -> target b t t) /\
     ((exists z, In z b /\ names z x) -> forall u, target b x u -> target b t u)).
Proof.
  intros o w p a c q b d r e C E C' E' C'' E''.
  assert (L : forall s out, result (c ++ d) s out <-> out = map (tgt b) (map (tgt a) s)).
  { intros s out. rewrite result_app. split.
    - intros (mid & M & O). apply (csv_result o w p a c C E) in M. apply (csv_result o w q b d C' E') in O. congruence.
    - intros ->. exists (map (tgt a) s). split; [apply (csv_result o w p a c C E)|apply (csv_result o w q b d C' E')]; reflexivity. }
  assert (R : (forall s out, result (c ++ d) s out <-> result e s out) <-> forall x, tgt b (tgt a x) = tgt (a ++ b) x).
  { split.
    - intros H x. assert (K : [tgt b (tgt a x)] = map (tgt (a ++ b)) [x]); [|cbn in K; congruence].
      apply (csv_result o w r (a ++ b) e C'' E''), H, L. reflexivity.
    - intros H s out. rewrite L, (csv_result o w r (a ++ b) e C'' E''), map_map, (map_ext _ _ H). reflexivity. }
  rewrite R. clear. split.
  - intros H x t T. apply target_tgt in T. subst t. specialize (H x). unfold tgt at 3 in H. rewrite say_app in H. split.
    + intros N. apply say_none in N. rewrite N in H. apply target_tgt. symmetry. exact H.
    + intros N u U. apply named in N. apply target_tgt in U. apply target_tgt. subst u. unfold tgt at 1. destruct (say b x); [symmetry; exact H|congruence].
  - intros H x. destruct (H x (tgt a x) (proj2 (target_tgt a x _) eq_refl)) as [H1 H2]. unfold tgt at 3. rewrite say_app. destruct (say b x) as [u|] eqn:Q.
    + symmetry. apply target_tgt. apply H2; [apply named; congruence|]. apply target_tgt. unfold tgt. rewrite Q. reflexivity.
    + symmetry. apply target_tgt. apply H1. apply say_none, Q.
Qed.
Print Assumptions C115_two_files.
Theorem C115_two_files_refuted : exists o w p a c q b d r e s, csv_file w p a /\ from_config_file o w p = Ok c /\ csv_file w q b /\ from_config_file o w q = Ok d /\
  csv_file w r (a ++ b) /\ from_config_file o w r = Ok e /\ normalize false o (c ++ d) s <> normalize false o e s.
Proof.
  set (w := World (fun _ => true) (fun f => Some (CsvFields [lit "h"] :: map CsvFields
      (if str_eqb f (lit "a.csv") then [[lit "x"; lit "y"]] else if str_eqb f (lit "b.csv") then [[lit "y"; lit "z"]] else [[lit "x"; lit "y"]; [lit "y"; lit "z"]])))
    (fun _ => None) (fun _ => None) EnvAbsent None None).
  assert (X : forall n, In n ["a.csv"; "b.csv"; "c.csv"] -> has_extension (lit n) (lit "csv")).
  { intros n I. apply ext_csv_iff. destruct I as [<-|[<-|[<-|[]]]]; reflexivity. }
  exists no_order, w, (lit "a.csv"), [[lit "x"; lit "y"]]. eexists. exists (lit "b.csv"), [[lit "y"; lit "z"]]. eexists. exists (lit "c.csv"). eexists. exists (lit "x").
  split; [split; [apply X; cbn; auto|eexists; split; [reflexivity|discriminate]]|]. split; [vm_compute; reflexivity|].
  split; [split; [apply X; cbn; auto|eexists; split; [reflexivity|discriminate]]|]. split; [vm_compute; reflexivity|].
  split; [split; [apply X; cbn; auto|eexists; split; [reflexivity|discriminate]]|]. split; [vm_compute; reflexivity|].
  vm_compute. discriminate.
Qed.
Print Assumptions C115_two_files_refuted.

(** ** As few rows as possible *)
Lemma tgt_changed rows x : tgt rows x <> x -> exists r, In r rows /\ sends r x (tgt rows x).
Proof. unfold tgt. destruct (say rows x) as [t|] eqn:E; [|congruence]. intros _. apply say_in, E. Qed.
Definition first_chars (row : list str) : list char := flat_map (fun f => match f with c :: _ => [c] | [] => [] end) row.
Definition changed (rows : list (list str)) : list char := filter (fun x => negb (N.eqb (tgt rows x) x)) (flat_map first_chars rows).
Lemma In_changed rows x : In x (changed rows) <-> tgt rows x <> x.
Proof.
  unfold changed. rewrite filter_In, negb_true_iff, N.eqb_neq. split; [tauto|]. intros H. split; [|exact H].
  destruct (tgt_changed rows x H) as (r & I & fs & f & g & -> & J). apply in_flat_map. exists (fs ++ [tgt rows x :: g]). split; [exact I|].
  unfold first_chars. apply in_flat_map. exists (x :: f). split; [apply in_app_iff; left; exact J|left; reflexivity].
Qed.
(** As many rows as there are characters something else turns into: so many are needed, and so many suffice. *)
Theorem C115_fewest : forall rows, exists ts, NoDup ts /\ (forall t, In t ts <-> exists x, x <> t /\ target rows x t) /\
  (exists best, Forall usable best /\ same_rows best rows /\ List.length best = List.length ts) /\
  forall other, same_rows other rows -> List.length ts <= List.length other.
Proof.
  intros rows. set (ts := nodup N.eq_dec (map (tgt rows) (changed rows))).
  assert (T : forall t, In t ts <-> exists x, x <> t /\ target rows x t).
  { intros t. unfold ts. rewrite nodup_In, in_map_iff. split.
    - intros (x & <- & I). apply In_changed in I. exists x. split; [congruence|apply target_tgt; reflexivity].
    - intros (x & N & H). apply target_tgt in H. subst t. exists x. split; [reflexivity|]. apply In_changed. congruence. }
  exists ts. split; [apply NoDup_nodup|]. split; [exact T|]. split.
  - set (mk := fun t => map (fun x => [x]) (filter (fun x => N.eqb (tgt rows x) t) (changed rows)) ++ [[t]]).
    assert (M : forall t x u, sends (mk t) x u <-> u = t /\ In x (changed rows) /\ tgt rows x = t).
    { intros t x u. unfold mk. split.
      - intros (fs & f & g & E & I). apply app_inj_tail in E as [<- E]. injection E as <- <-. apply in_map_iff in I as (y & E & I). injection E as -> <-.
        apply filter_In in I as [I Q]. apply N.eqb_eq in Q. auto.
      - intros (-> & I & Q). eexists. exists [], []. split; [reflexivity|]. apply in_map_iff. exists x. split; [reflexivity|]. apply filter_In. split; [exact I|apply N.eqb_eq, Q]. }
    exists (map mk ts). split; [|split].
    + apply Forall_forall. intros r I. apply in_map_iff in I as (t & <- & _). unfold mk, usable. rewrite app_length, map_length. cbn [List.length].
      destruct (List.length (filter _ _)) as [|n]; [left; reflexivity|right]. split; [lia|]. intros I. apply in_app_iff in I as [I|[I|[]]]; [|discriminate].
      apply in_map_iff in I as (y & E & _). discriminate.
    + apply same_tgt. intros x. destruct (say (map mk ts) x) as [u|] eqn:E; unfold tgt at 1; rewrite E.
      * apply say_in in E as (r & I & S). apply in_map_iff in I as (t & <- & I). apply M in S as (-> & _ & Q). symmetry. exact Q.
      * destruct (N.eq_dec (tgt rows x) x) as [Q|Q]; [symmetry; exact Q|]. exfalso. apply (proj1 (say_none (map mk ts) x) E (mk (tgt rows x))).
        -- apply in_map. apply T. exists x. split; [congruence|apply target_tgt; reflexivity].
        -- exists (tgt rows x). apply M. split; [reflexivity|]. split; [apply In_changed, Q|reflexivity].
    + apply map_length.
  - intros other S. rewrite <- (map_length (fun r : list str => match hd_error (last r []) with Some t => t | None => 0%N end) other).
    apply NoDup_incl_length; [apply NoDup_nodup|]. intros t I. apply T in I as (x & N & H). apply S in H. apply target_tgt in H.
    destruct (tgt_changed other x) as (r & I & K); [congruence|]. rewrite <- H in K. apply in_map_iff. exists r. split; [|exact I].
    destruct K as (fs & f & g & -> & _). rewrite last_last. reflexivity.
Qed.
Print Assumptions C115_fewest.
(** Three rows of which one suffices; the order of two contradicting rows matters. *)
Example C115_case :
  Forall usable [[lit "a"; lit "b"]; [lit "c"; lit "b"]; [lit "b"; lit "b"]] /\ same_rows [[lit "a"; lit "b"]; [lit "c"; lit "b"]; [lit "b"; lit "b"]] [[lit "a"; lit "c"; lit "b"]] /\
  ~ same_rows [[lit "a"; lit "b"]; [lit "a"; lit "c"]] [[lit "a"; lit "c"]; [lit "a"; lit "b"]].
Proof.
  split; [apply Forall_forall; intros r [<-|[<-|[<-|[]]]]; right; (split; [cbn; lia|intros I; cbn in I; intuition discriminate])|]. split.
  - apply same_tgt. intros x. unfold tgt. cbn [say]. unfold send.
    change (lit "a") with [97%N]; change (lit "b") with [98%N]; change (lit "c") with [99%N]. cbn [removelast existsb last hd_error]. rewrite !orb_false_r.
    destruct (N.eqb_spec 98 x) as [<-|]; [reflexivity|]. destruct (97 =? x)%N, (99 =? x)%N; reflexivity.
  - rewrite same_tgt. intros H. specialize (H 97%N). discriminate H.
Qed.
