(** C115, continued: files that can be applied twice, and files that can be undone. *)
From Coq Require Import String Lia.
From Verif Require Import Base File ModifierKind Configuration ChanomaModel Spec FileSpec PathSpec ConfigSpec BaseFacts PropsConverter PropsPipeline
  ConfigProps RowsSpec PropsRows EntriesSpec PropsEntries PropsOrderMore.
Local Open Scope string_scope.
Local Open Scope list_scope.

(** Applying the file again changes nothing exactly if no character it produces is replaced in turn. *)
Theorem C115_twice : forall o w p rows c, csv_file w p rows -> from_config_file o w p = Ok c ->
  ((forall s out again, result c s out -> result c out again -> again = out) <-> forall x t u, target rows x t -> target rows t u -> u = t).
Proof.
  intros o w p rows c C E. pose proof (csv_result o w p rows c C E) as R. split.
  - intros H x t u T U. apply target_tgt in T, U. subst t u. assert (K : [tgt rows (tgt rows x)] = [tgt rows x]); [|congruence].
    apply (H [x]); apply R; reflexivity.
  - intros H s out again A B. apply R in A, B. subst out again. rewrite map_map. apply map_ext. intros x. apply (H x); apply target_tgt; reflexivity.
Qed.
Definition back (rows : list (list str)) : list (list str) := map (fun x => [[tgt rows x]; [x]]) (changed rows).
Lemma back_sends rows r x t : In r (back rows) -> sends r x t -> tgt rows t = x /\ tgt rows t <> t.
Proof.
  intros I S. unfold back in I. apply in_map_iff in I as (y & <- & I). apply In_changed in I. destruct S as (fs & f & g & E & J).
  change [[tgt rows y]; [y]] with ([[tgt rows y]] ++ [[y]]) in E. apply app_inj_tail in E as [<- E]. injection E as <- <-. destruct J as [J|[]]. injection J as J _. subst x. auto.
Qed.
Lemma back_tgt rows : (forall x y, tgt rows x = tgt rows y -> x = y) -> forall x, tgt (back rows) (tgt rows x) = x.
Proof.
  intros H x. unfold tgt at 1. destruct (say (back rows) (tgt rows x)) as [u|] eqn:E.
  - apply say_in in E as (r & I & S). apply (back_sends rows r _ u I) in S as [S _]. apply H, S.
  - destruct (N.eq_dec (tgt rows x) x) as [Q|Q]; [exact Q|]. exfalso. apply (proj1 (say_none (back rows) (tgt rows x)) E [[tgt rows x]; [x]]).
    + unfold back. apply in_map_iff. exists x. split; [reflexivity|apply In_changed, Q].
    + exists x, [[tgt rows x]], [], []. split; [reflexivity|left; reflexivity].
Qed.
Lemma back_usable rows : Forall usable (back rows).
Proof. apply Forall_forall. intros r I. unfold back in I. apply in_map_iff in I as (y & <- & _). right. split; [cbn; lia|]. intros [H|[H|[]]]; discriminate H. Qed.
(** Another CSV file undoes it exactly if it never makes two characters alike. *)
Theorem C115_undo : forall o w p rows c, csv_file w p rows -> from_config_file o w p = Ok c ->
  ((exists w' q rows' d, csv_file w' q rows' /\ from_config_file o w' q = Ok d /\ forall s out, result c s out -> result d out s) <->
   forall x y t, target rows x t -> target rows y t -> x = y).
Proof.
  intros o w p rows c C E. pose proof (csv_result o w p rows c C E) as R. split.
  - intros (w' & q & rows' & d & C' & E' & H) x y t X Y. pose proof (csv_result o w' q rows' d C' E') as R'. apply target_tgt in X, Y.
    assert (K : forall z, [z] = [tgt rows' (tgt rows z)]) by (intros z; apply (R' [tgt rows z]), H, R; reflexivity).
    pose proof (K x) as A. pose proof (K y) as B. rewrite <- X in A. rewrite <- Y in B. congruence.
  - intros H. exists (csv_world (back rows)), (lit "a.csv"), (back rows). destruct (proj2 (C115_loads o _ _ _ (csv_world_file (back rows))) (back_usable rows)) as (d & D).
    exists d. split; [apply csv_world_file|]. split; [exact D|]. intros s out Q. apply R in Q. subst out. apply (csv_result o _ _ _ d (csv_world_file (back rows)) D).
    rewrite map_map. rewrite (map_ext _ (fun x => x)); [symmetry; apply map_id|]. apply back_tgt. intros x y K. apply (H x y (tgt rows x)); apply target_tgt; [reflexivity|exact K].
Qed.
(** Such a file replaces every character it produces, so unless it changes nothing, applying it again changes something. *)
Theorem C115_undo_moves : forall rows, (forall x y t, target rows x t -> target rows y t -> x = y) ->
  forall x t, target rows x t -> x <> t -> exists u, target rows t u /\ u <> t.
Proof.
  intros rows H x t T N. exists (tgt rows t). split; [apply target_tgt; reflexivity|]. intros K. apply N. apply (H x t t T). apply target_tgt. congruence.
Qed.
(** Two characters that change places: the file can be undone, not applied twice; one replacement: the other way round. *)
Example C115_undo_case : (forall x y t, target [[lit "a"; lit "b"]; [lit "b"; lit "a"]] x t -> target [[lit "a"; lit "b"]; [lit "b"; lit "a"]] y t -> x = y) /\
  (exists x t u, target [[lit "a"; lit "b"]; [lit "b"; lit "a"]] x t /\ target [[lit "a"; lit "b"]; [lit "b"; lit "a"]] t u /\ u <> t) /\
  (forall x t u, target [[lit "a"; lit "b"]] x t -> target [[lit "a"; lit "b"]] t u -> u = t) /\ (exists x y t, x <> y /\ target [[lit "a"; lit "b"]] x t /\ target [[lit "a"; lit "b"]] y t).
Proof.
  change (lit "a") with [97%N]. change (lit "b") with [98%N].
  assert (S : forall x, tgt [[[97%N]; [98%N]]; [[98%N]; [97%N]]] x = if N.eqb 98 x then 97%N else if N.eqb 97 x then 98%N else x).
  { intros x. unfold tgt. cbn [say]. unfold send. cbn [removelast existsb last hd_error]. rewrite !orb_false_r. destruct (98 =? x)%N, (97 =? x)%N; reflexivity. }
  assert (O : forall x, tgt [[[97%N]; [98%N]]] x = if N.eqb 97 x then 98%N else x).
  { intros x. unfold tgt. cbn [say]. unfold send. cbn [removelast existsb last hd_error]. rewrite !orb_false_r. destruct (97 =? x)%N; reflexivity. }
  split; [|split; [|split]].
  - intros x y t X Y. apply target_tgt in X, Y. rewrite S in X, Y. destruct (N.eqb_spec 98 x), (N.eqb_spec 97 x), (N.eqb_spec 98 y), (N.eqb_spec 97 y); congruence.
  - exists 97%N, 98%N, 97%N. rewrite !target_tgt, !S. split; [reflexivity|]. split; [reflexivity|discriminate].
  - intros x t u T U. apply target_tgt in T, U. rewrite O in T, U. destruct (N.eqb_spec 97 x), (N.eqb_spec 97 t); congruence.
  - exists 97%N, 98%N, 98%N. rewrite !target_tgt, !O. split; [discriminate|]. split; reflexivity.
Qed.
Print Assumptions C115_twice. Print Assumptions C115_undo. Print Assumptions C115_undo_moves.

(** ** Using a file again and again *)
Lemma iter_comm {A} (f : A -> A) n x : Nat.iter n f (f x) = f (Nat.iter n f x).
Proof. induction n as [|n IH]; [reflexivity|]. exact (f_equal f IH). Qed.
Lemma iter_add {A} (f : A -> A) n m x : Nat.iter (n + m) f x = Nat.iter n f (Nat.iter m f x).
Proof. induction n as [|n IH]; [reflexivity|]. exact (f_equal f IH). Qed.
Lemma iter_fixed {A} (f : A -> A) n x : f x = x -> Nat.iter n f x = x.
Proof. intros H. induction n as [|n IH]; [reflexivity|]. change (f (Nat.iter n f x) = x). rewrite IH. exact H. Qed.
Lemma iter_period {A} (f : A -> A) k n x : Nat.iter k f x = x -> Nat.iter (n * k) f x = x.
Proof. intros H. induction n as [|n IH]; [reflexivity|]. cbn [Nat.mul]. rewrite iter_add, IH. exact H. Qed.
Lemma again_result c f n : (forall s out, result c s out <-> out = map f s) -> forall s out, result (concat (repeat c n)) s out <-> out = map (Nat.iter n f) s.
Proof.
  intros R. induction n as [|n IH]; intros s out.
  - cbn [repeat concat]. rewrite result_nil. cbn. rewrite map_id. reflexivity.
  - cbn [repeat concat]. rewrite result_app. split.
    + intros (mid & M & O). apply R in M. apply IH in O. subst. rewrite map_map. apply map_ext. intros x. apply iter_comm.
    + intros ->. exists (map f s). split; [apply R; reflexivity|]. apply IH. rewrite map_map. apply map_ext. intros x. symmetry. apply iter_comm.
Qed.
Lemma leads_iter rows x t : leads rows x t -> exists k, Nat.iter (S k) (tgt rows) x = t /\ tgt rows x <> x.
Proof.
  induction 1 as [x t T N|x t u T N L (k & K & _)]; apply target_tgt in T.
  - exists 0. cbn. split; congruence.
  - exists (S k). split; [|congruence]. rewrite <- K, T. symmetry. apply (iter_comm (tgt rows) (S k)).
Qed.
Lemma iter_leads rows k x : (forall i, i <= k -> tgt rows (Nat.iter i (tgt rows) x) <> Nat.iter i (tgt rows) x) -> leads rows x (Nat.iter (S k) (tgt rows) x).
Proof.
  revert x. induction k as [|k IH]; intros x H.
  - apply ld_one; [apply target_tgt; reflexivity|]. specialize (H 0 (le_n 0)). cbn in *. congruence.
  - apply ld_more with (t := tgt rows x); [apply target_tgt; reflexivity|specialize (H 0 (Nat.le_0_l _)); cbn in H; congruence|].
    replace (Nat.iter (S (S k)) (tgt rows) x) with (Nat.iter (S k) (tgt rows) (tgt rows x)) by apply (iter_comm (tgt rows) (S k)).
    apply IH. intros i I. rewrite iter_comm. apply (H (S i)). lia.
Qed.
Lemma stays_changed rows n x i : tgt rows (Nat.iter n (tgt rows) x) <> Nat.iter n (tgt rows) x -> i <= n -> tgt rows (Nat.iter i (tgt rows) x) <> Nat.iter i (tgt rows) x.
Proof.
  intros H I E. apply H. replace n with ((n - i) + i) by lia. rewrite iter_add. rewrite (iter_fixed _ (n - i) _ E). exact E.
Qed.
Lemma settled rows x : (forall y, ~ leads rows y y) -> forall L, (forall y, In y L <-> tgt rows y <> y) ->
  tgt rows (Nat.iter (List.length L) (tgt rows) x) = Nat.iter (List.length L) (tgt rows) x.
Proof.
  intros NC L HL. set (f := tgt rows) in *. set (n := List.length L). destruct (N.eq_dec (f (Nat.iter n f x)) (Nat.iter n f x)) as [E|E]; [exact E|]. exfalso.
  assert (D : forall i j, i < j -> j <= n -> Nat.iter i f x <> Nat.iter j f x).
  { intros i j I J Q. apply (NC (Nat.iter i f x)). rewrite Q at 2. replace j with (S (j - i - 1) + i) by lia. rewrite iter_add. apply iter_leads.
    intros m M. pose proof (stays_changed rows n x (m + i) E ltac:(lia)) as Z. rewrite iter_add in Z. exact Z. }
  assert (ND : NoDup (map (fun i => Nat.iter i f x) (seq 0 (S n)))).
  { apply nodup_map_on; [apply seq_NoDup|]. intros a b A B Q. apply in_seq in A, B. destruct (Nat.lt_trichotomy a b) as [O|[O|O]]; [|exact O|].
    - destruct (D a b O ltac:(lia) Q).
    - destruct (D b a O ltac:(lia) (eq_sym Q)). }
  assert (G : S n <= n).
  { assert (K := NoDup_incl_length ND (l' := L)). rewrite map_length, seq_length in K. apply K. intros y I. apply in_map_iff in I as (i & <- & I). apply in_seq in I.
    apply HL. exact (stays_changed rows n x i E ltac:(lia)). }
  lia.
Qed.
(** Used again and again a file settles, for all texts after one number of times, exactly if it leads no character back to itself... *)
Theorem C115_settles : forall o w p rows c, csv_file w p rows -> from_config_file o w p = Ok c ->
  ((exists n, forall s out again, result (concat (repeat c n)) s out -> result c out again -> again = out) <-> forall x, ~ leads rows x x).
Proof.
  intros o w p rows c C E. pose proof (csv_result o w p rows c C E) as R. split.
  - intros (n & H) x L. apply leads_iter in L as (k & K & N). apply N.
    assert (F : forall y, tgt rows (Nat.iter n (tgt rows) y) = Nat.iter n (tgt rows) y).
    { intros y. assert (Q : [tgt rows (Nat.iter n (tgt rows) y)] = [Nat.iter n (tgt rows) y]); [|congruence].
      apply (H [y]); [apply (again_result c (tgt rows) n R); reflexivity|apply R; reflexivity]. }
    assert (P := iter_period (tgt rows) (S k) n x K). replace (n * S k) with (n + n * k) in P by lia. rewrite iter_add in P.
    rewrite <- P. apply F.
  - intros NC. exists (List.length (changed rows)). intros s out again A B. apply (again_result c (tgt rows) _ R) in A. apply R in B. subst out again. rewrite map_map.
    apply map_ext. intros x. apply settled; [exact NC|apply In_changed].
Qed.
(** ... and then as many times are enough as there are characters it replaces. *)
Theorem C115_settles_after : forall o w p rows c L, csv_file w p rows -> from_config_file o w p = Ok c -> (forall x, ~ leads rows x x) ->
  (forall x, In x L <-> exists t, target rows x t /\ x <> t) ->
  forall s out again, result (concat (repeat c (List.length L))) s out -> result c out again -> again = out.
Proof.
  intros o w p rows c L C E NC HL s out again A B. pose proof (csv_result o w p rows c C E) as R. apply (again_result c (tgt rows) _ R) in A. apply R in B. subst out again.
  rewrite map_map. apply map_ext. intros x. apply settled; [exact NC|]. intros y. rewrite HL. split.
  - intros (t & T & N). apply target_tgt in T. congruence.
  - intros N. exists (tgt rows y). split; [apply target_tgt; reflexivity|congruence].
Qed.
(** A chain of three characters settles, after two times; two characters that change places never do. *)
Example C115_settles_case : (forall x, ~ leads [[lit "a"; lit "b"]; [lit "b"; lit "c"]] x x) /\ leads [[lit "a"; lit "b"]; [lit "b"; lit "c"]] 97%N 99%N /\
  leads [[lit "a"; lit "b"]; [lit "b"; lit "a"]] 97%N 97%N.
Proof.
  change (lit "a") with [97%N]. change (lit "b") with [98%N]. change (lit "c") with [99%N].
  assert (S : forall x t, target [[[97%N]; [98%N]]; [[98%N]; [99%N]]] x t <-> t = if N.eqb 98 x then 99%N else if N.eqb 97 x then 98%N else x).
  { intros x t. rewrite target_tgt. unfold tgt. cbn [say]. unfold send. cbn [removelast existsb last hd_error]. rewrite !orb_false_r. destruct (98 =? x)%N, (97 =? x)%N; reflexivity. }
  split; [|split].
  - assert (G : forall x t, leads [[[97%N]; [98%N]]; [[98%N]; [99%N]]] x t -> (x < t)%N).
    { induction 1 as [x t T N|x t u T N L IH]; apply S in T; destruct (N.eqb_spec 98 x), (N.eqb_spec 97 x); subst; try congruence; lia. }
    intros x L. apply G in L. lia.
  - apply ld_more with (t := 98%N); [apply S; reflexivity|discriminate|]. apply ld_one; [apply S; reflexivity|discriminate].
  - apply ld_more with (t := 98%N); [apply target_tgt; reflexivity|discriminate|]. apply ld_one; [apply target_tgt; reflexivity|discriminate].
Qed.
Print Assumptions C115_settles. Print Assumptions C115_settles_after.
(** ** The number of times cannot be lowered *)
Definition steps (n : nat) : list (list str) := map (fun i => [[N.of_nat i]; [N.of_nat (S i)]]) (seq 0 n).
Lemma send_step i x : send [[N.of_nat i]; [N.of_nat (S i)]] x = if N.eqb (N.of_nat i) x then Some (N.of_nat (S i)) else None.
Proof. unfold send. cbn [removelast existsb last hd_error]. rewrite orb_false_r. reflexivity. Qed.
Lemma tgt_steps n x : tgt (steps n) x = if N.ltb x (N.of_nat n) then (x + 1)%N else x.
Proof.
  unfold tgt. assert (K : say (steps n) x = if N.ltb x (N.of_nat n) then Some (x + 1)%N else None).
  - induction n as [|n IH].
    + cbn. destruct (N.ltb_spec x 0); [lia|reflexivity].
    + unfold steps in *. rewrite seq_S, map_app, say_app, IH. cbn [map say Nat.add]. rewrite send_step.
      destruct (N.eqb_spec (N.of_nat n) x), (N.ltb_spec x (N.of_nat n)), (N.ltb_spec x (N.of_nat (S n))); try lia; try reflexivity; f_equal; lia.
  - rewrite K. destruct (x <? N.of_nat n)%N; reflexivity.
Qed.
Lemma iter_steps n m : m <= n -> Nat.iter m (tgt (steps n)) 0%N = N.of_nat m.
Proof.
  induction m as [|m IH]; intros H; [reflexivity|]. change (tgt (steps n) (Nat.iter m (tgt (steps n)) 0%N) = N.of_nat (S m)). rewrite IH by lia. rewrite tgt_steps.
  destruct (N.ltb_spec (N.of_nat m) (N.of_nat n)); lia.
Qed.
(** For every n some file that replaces n characters settles, but not earlier. (Characters up to n: real ones for n below 55,296.) *)
Theorem C115_settles_tight : forall n, exists rows L, Forall usable rows /\ (forall x, ~ leads rows x x) /\
  NoDup L /\ List.length L = n /\ (forall x, In x L <-> exists t, target rows x t /\ x <> t) /\
  forall o w p c, csv_file w p rows -> from_config_file o w p = Ok c ->
    forall m, m < n -> exists s out again, result (concat (repeat c m)) s out /\ result c out again /\ again <> out.
Proof.
  intros n. exists (steps n), (map N.of_nat (seq 0 n)). split; [|split; [|split; [|split; [|split]]]].
  - apply Forall_forall. intros r I. unfold steps in I. apply in_map_iff in I as (i & <- & _). right. split; [cbn; lia|]. intros [H|[H|[]]]; discriminate H.
  - assert (G : forall x t, leads (steps n) x t -> (x < t)%N).
    { induction 1 as [x t T N|x t u T N L IH]; apply target_tgt in T; rewrite tgt_steps in T; destruct (x <? N.of_nat n)%N; subst; try congruence; lia. }
    intros x L. apply G in L. lia.
  - apply nodup_map_on; [apply seq_NoDup|]. intros x y _ _ E. lia.
  - rewrite map_length, seq_length. reflexivity.
  - intros x. rewrite in_map_iff. split.
    + intros (i & <- & I). apply in_seq in I. exists (N.of_nat i + 1)%N. rewrite target_tgt, tgt_steps. destruct (N.ltb_spec (N.of_nat i) (N.of_nat n)); split; lia.
    + intros (t & T & D). apply target_tgt in T. rewrite tgt_steps in T. destruct (N.ltb_spec x (N.of_nat n)); [|congruence]. exists (N.to_nat x). split; [lia|]. apply in_seq. lia.
  - intros o w p c C E m M. pose proof (csv_result o w p _ c C E) as R. exists [0%N], [N.of_nat m], [N.of_nat (S m)]. split; [|split].
    + apply (again_result c _ m R). cbn [map]. rewrite iter_steps by lia. reflexivity.
    + apply R. cbn [map]. rewrite tgt_steps. destruct (N.ltb_spec (N.of_nat m) (N.of_nat n)); [|lia]. f_equal. lia.
    + intros H. assert (Q : N.of_nat (S m) = N.of_nat m) by congruence. lia.
Qed.
Print Assumptions C115_settles_tight.
