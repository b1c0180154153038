(** Property C94, continued: every cut can happen; what the tool prints on a device. *)
From Coq Require Import String Lia.
From Verif Require Import Base BaseFacts Utf8 StrOps Corr Table Charset Yaml File Configuration Cli Csv Process OutputTool Ending WriteOut
  Spec ProcessSpec FileSpec CsvSpec FileProps PyProps CsvProps PropsNeo PropsConverter PropsFile PropsCsv PropsConfig PropsProcess PropsEnding PropsWrite.
Local Open Scope string_scope.
Local Open Scope list_scope.

(** A device that fails at its use [j], after [k] bytes, and then for good. *)
Definition cut_device (j k : nat) : device := fun m => if Nat.ltb m j then None else if Nat.eqb m j then Some k else Some 0.
Lemma cut_for_good j k : fails_for_good (cut_device j k).
Proof.
  intros n i H m L. unfold cut_device in *. destruct (Nat.ltb_spec n j); [discriminate|]. destruct (Nat.ltb_spec m j); [lia|]. destruct (Nat.eqb_spec m j); [lia|reflexivity].
Qed.
Lemma cut_before j k u : u < j -> cut_device j k u = None.
Proof. intros L. unfold cut_device. destruct (Nat.ltb_spec u j); [reflexivity|lia]. Qed.
Lemma cut_at j k : cut_device j k j = Some k.
Proof. unfold cut_device. rewrite Nat.ltb_irrefl, Nat.eqb_refl. reflexivity. Qed.
Lemma write_before j k u g b : u < j -> exists u', u <= u' <= S u /\ write_all (cut_device j k) (Sink u g) b = (Sink u' (g ++ b), true).
Proof.
  intros L. unfold write_all. destruct b as [|x b]; [exists u; rewrite app_nil_r; split; [lia|reflexivity]|].
  cbn [used got]. rewrite (cut_before j k u L). exists (S u). split; [lia|reflexivity].
Qed.
Lemma write_at j k g b : k < List.length b -> write_all (cut_device j k) (Sink j g) b = (Sink (S j) (g ++ firstn k b), false).
Proof.
  intros L. unfold write_all. destruct b as [|x b]; [cbn in L; lia|]. cbn [used got]. rewrite cut_at. cbn [List.length] in *.
  rewrite Nat.min_l by (cbn [pred]; lia). reflexivity.
Qed.
(** All pieces but the last are taken. *)
Lemma pass_before cs : forall u g, exists u', forall j k, u' <= j -> pass_on (cut_device j k) (Sink u g) cs = (Sink u' (g ++ List.concat cs), None).
Proof.
  induction cs as [|b cs IH]; intros u g; [exists u; intros j k _; cbn; rewrite app_nil_r; reflexivity|].
  destruct b as [|x b].
  - destruct (IH u g) as (u' & H). exists u'. intros j k L. cbn [pass_on write_all List.concat app]. apply H, L.
  - destruct (IH (S u) (g ++ x :: b)) as (u' & H). assert (M : S u <= u').
    { specialize (H u' 0 (le_n _)). revert H. generalize (cut_device u' 0) as d. generalize (g ++ x :: b) as h. generalize (S u) as v. clear. intros v h d H.
      assert (G : forall cs s s1 r, pass_on d s cs = (s1, r) -> used s <= used s1).
      { clear. induction cs as [|b cs IH]; intros s s1 r; cbn [pass_on]; [intros E; injection E as <- _; apply le_n|].
        destruct (write_all d s b) as (s2, ok) eqn:W. assert (Q : used s <= used s2).
        { unfold write_all in W. destruct b as [|y b]; [injection W as <- _; apply le_n|]. destruct (d (used s)); injection W as <- _; cbn [used]; lia. }
        destruct ok; intros E; [apply IH in E; lia|injection E as <- _; exact Q]. }
      apply G in H. exact H. }
    exists u'. intros j k L. cbn [pass_on]. unfold write_all. cbn [used got]. rewrite (cut_before j k u) by lia. rewrite (H j k L).
    cbn [List.concat]. rewrite <- app_assoc. reflexivity.
Qed.
Lemma firstn_more {A} n (b r : list A) : List.length b <= n -> firstn n (b ++ r) = b ++ firstn (n - List.length b) r.
Proof. intros L. rewrite firstn_app, firstn_all2 by exact L. reflexivity. Qed.
Lemma firstn_less {A} n (b r : list A) : n <= List.length b -> firstn n (b ++ r) = firstn n b.
Proof. intros L. rewrite firstn_app. replace (n - List.length b) with 0 by lia. cbn [firstn]. apply app_nil_r. Qed.
(** Every number of bytes can be the last that is taken. *)
Lemma cut_pieces cs : forall u n, n < List.length (List.concat cs) -> exists j k, u <= j /\ forall g,
  (exists s1 b, pass_on (cut_device j k) (Sink u g) cs = (s1, Some b) /\ got s1 = g ++ firstn n (List.concat cs) /\ used s1 = S j) /\
  (forall retry, exists s1, print_pieces (cut_device j k) retry (Sink u g) cs = (s1, false) /\ got s1 = g ++ firstn n (List.concat cs)).
Proof.
  induction cs as [|b cs IH]; intros u n L; [cbn in L; lia|]. cbn [List.concat] in *. rewrite app_length in L.
  destruct (Nat.lt_ge_cases n (List.length b)) as [Lb|Lb].
  - exists u, n. split; [apply le_n|]. intros g. cbn [pass_on print_pieces]. rewrite (write_at u n g b Lb). rewrite (firstn_less n b) by lia. split.
    + exists (Sink (S u) (g ++ firstn n b)), b. auto.
    + intros retry. eexists. split; [reflexivity|]. destruct retry; [|reflexivity].
      destruct (write_all _ (Sink (S u) _) _) as (s2, ok) eqn:W. cbn [fst].
      rewrite (dead_write (cut_device u n) (Sink (S u) (g ++ firstn n b)) _ s2 ok (fun m M => cut_for_good u n u n (cut_at u n) m M) W). reflexivity.
  - destruct b as [|x b].
    + destruct (IH u n) as (j & k & J & H); [cbn in L; lia|]. exists j, k. split; [exact J|]. intros g. cbn [pass_on print_pieces write_all app]. apply H.
    + destruct (IH (S u) (n - List.length (x :: b))) as (j & k & J & H); [lia|]. exists j, k. split; [lia|]. intros g.
      cbn [pass_on print_pieces]. unfold write_all at 1 2. cbn [used got]. rewrite (cut_before j k u) by lia. rewrite (firstn_more n (x :: b)) by exact Lb.
      specialize (H (g ++ x :: b)). rewrite <- app_assoc in H. exact H.
Qed.

(** What the device holds when the writer is gone. *)
Definition held (d : device) (r : csv_written) : list N :=
  match r with CsvPanicked s => got s | CsvWriter s buf => got (dropped d s buf) end.
(** Every beginning of an export can be all that a device gets. *)
Theorem C94_any_cut : forall o c n, n <= List.length (to_csv_bytes o c) ->
  exists d, fails_for_good d /\ held d (to_csv_writer_to o c d) = firstn n (to_csv_bytes o c).
Proof.
  intros o c n L. destruct (fill capacity [] (csv_units o c)) as (cs, rest) eqn:F.
  pose proof (fill_concat _ _ _ _ _ F) as C. cbn [app] in C. rewrite concat_units in C. rewrite <- C in L |- *. rewrite app_length in L.
  unfold to_csv_writer_to. rewrite F. destruct (Nat.lt_ge_cases n (List.length (List.concat cs))) as [A|A].
  - destruct (cut_pieces cs 0 n A) as (j & k & _ & H). destruct (H []) as ((s1 & b & P & G & U) & _). exists (cut_device j k). split; [apply cut_for_good|].
    change fresh with (Sink 0 []). rewrite P. cbn [held]. destruct (flush (cut_device j k) s1 b) as (s2, ok) eqn:E. cbn [fst].
    rewrite (flush_dead _ _ _ _ _ (fun m M => cut_for_good j k j k (cut_at j k) m ltac:(rewrite U in M; exact M)) E), G. cbn [app]. rewrite firstn_less by lia. reflexivity.
  - destruct (pass_before cs 0 []) as (u & H). rewrite (firstn_more n _ _ A). set (i := n - List.length (List.concat cs)).
    destruct (Nat.lt_ge_cases i (List.length rest)) as [B|B].
    + exists (cut_device u i). split; [apply cut_for_good|]. change fresh with (Sink 0 []). rewrite (H u i (le_n _)). cbn [held app]. unfold dropped, flush.
      rewrite (write_at u i _ rest B). reflexivity.
    + exists (cut_device (S (S u)) 0). split; [apply cut_for_good|]. change fresh with (Sink 0 []). rewrite (H (S (S u)) 0) by lia. cbn [held app]. unfold dropped, flush.
      destruct (write_before (S (S u)) 0 u (List.concat cs) rest) as (u' & _ & W); [lia|]. rewrite W. cbn [dev_flush fst got]. rewrite firstn_all2 by exact B. reflexivity.
Qed.
Print Assumptions C94_any_cut.
(** The writer gives the device back exactly if it neither fails when the rest of the buffer is written (if there is any) nor when
    it is itself flushed. *)
Theorem C94_given_back : forall d s buf, (exists s', into_inner d s buf = (s', true)) <->
  (buf = [] /\ d (used s) = None) \/ (buf <> [] /\ d (used s) = None /\ d (S (used s)) = None).
Proof.
  intros d s buf. unfold into_inner, flush, write_all, dev_flush. destruct buf as [|x buf].
  - split.
    + intros (s' & E). left. split; [reflexivity|]. destruct (d (used s)); [discriminate E|reflexivity].
    + intros [[_ ->]|[N _]]; [eexists; reflexivity|destruct N; reflexivity].
  - split.
    + intros (s' & E). right. split; [discriminate|]. destruct (d (used s)) as [k|]; [discriminate E|]. cbn [used] in E. destruct (d (S (used s))); [discriminate E|auto].
    + intros [[E _]|[_ [-> H]]]; [discriminate E|]. cbn [used]. rewrite H. eexists. reflexivity.
Qed.
Print Assumptions C94_given_back.
(** Each attempt to give it back uses the device anew: after two failures the third use counts. *)
Theorem C94_again : forall d s buf s', into_inner d s buf = (s', false) -> used s < used s' /\
  ((exists s2, into_inner d s' buf = (s2, true)) <-> d (used s') = None /\ (buf <> [] -> d (S (used s')) = None)).
Proof.
  intros d s buf s' E. split.
  - unfold into_inner, flush, write_all, dev_flush in E. destruct buf as [|x buf].
    + injection E as <- _. cbn [used]. apply le_n.
    + destruct (d (used s)) as [k|]; injection E as <-; cbn [used]; lia.
  - rewrite C94_given_back. destruct buf as [|x buf]; split.
    + intros [[_ H]|[N _]]; [split; [exact H|intros N; destruct N; reflexivity]|destruct N; reflexivity].
    + intros [H _]. left. auto.
    + intros [[Q _]|[_ [H H']]]; [discriminate Q|auto].
    + intros [H H']. right. split; [discriminate|]. split; [exact H|apply H'; discriminate].
Qed.
Print Assumptions C94_again.

(** ** The tool *)
Lemma run_on d : reliable d -> forall o w args stdin message retry cut b, (forall l, List.concat (cut l) = l) ->
  printed_bytes (process o w args stdin) message = Some b -> got (fst (tool_run o w args stdin message d retry cut)) = b /\ snd (tool_run o w args stdin message d retry cut) = 0%N.
Proof.
  intros R o w args stdin message retry cut b C P. unfold tool_run. rewrite P.
  destruct (status_with_output o w args stdin d retry (cut b)) as (s, n) eqn:E. cbn [fst snd].
  destruct (C94_stdout o w args stdin message d retry (cut b) b P (C b) s n E) as (_ & _ & A & B). specialize (B R). auto.
Qed.
(** What it prints: the text of C74, or that standard input could not be read, both with status 0. *)
Theorem C94_printed : forall d, reliable d -> forall o w args stdin message retry cut, (forall l, List.concat (cut l) = l) ->
  (forall b, process o w args stdin = Output b -> got (fst (tool_run o w args stdin message d retry cut)) = b /\ snd (tool_run o w args stdin message d retry cut) = 0%N) /\
  (process o w args stdin = ReadFailed ->
     got (fst (tool_run o w args stdin message d retry cut)) = lit "error: " ++ message ++ [0x0A%N] /\ snd (tool_run o w args stdin message d retry cut) = 0%N).
Proof.
  intros d R o w args stdin message retry cut C. split.
  - intros b P. apply (run_on d R o w args stdin message retry cut b C). rewrite P. reflexivity.
  - intros P. apply (run_on d R o w args stdin message retry cut _ C). rewrite P. reflexivity.
Qed.
Print Assumptions C94_printed.
(** A run that prints nothing leaves the device alone, however it behaves: it has panicked, or its arguments are wrong. *)
Theorem C94_nothing_printed : forall d o w args stdin message retry cut,
  (process o w args stdin = Panicked -> tool_run o w args stdin message d retry cut = (fresh, 101%N)) /\
  ((forall op, ~ accepted args op) -> ~ asks help_word args -> ~ asks version_word args -> tool_run o w args stdin message d retry cut = (fresh, 2%N)).
Proof.
  intros d o w args stdin message retry cut. destruct (C89_status o w args stdin) as (A & B & _ & Q). split.
  - intros P. unfold tool_run. rewrite P. cbn [printed_bytes]. f_equal. apply B, P.
  - intros N H V. assert (P : process o w args stdin = NotRun).
    { apply Q. intros op E. apply (N op). destruct (C89_endings args) as (_ & _ & R & _). apply R, E. }
    unfold tool_run. rewrite P. cbn [printed_bytes]. f_equal. apply A. auto.
Qed.
Print Assumptions C94_nothing_printed.
(** Every beginning of it can be all that is printed, the status then being 101. *)
Theorem C94_printed_cut : forall o w args stdin message retry cut b n, (forall l, List.concat (cut l) = l) ->
  printed_bytes (process o w args stdin) message = Some b -> n < List.length b ->
  exists d s, fails_for_good d /\ tool_run o w args stdin message d retry cut = (s, 101%N) /\ got s = firstn n b.
Proof.
  intros o w args stdin message retry cut b n C P L. rewrite <- (C b) in L. destruct (cut_pieces (cut b) 0 n L) as (j & k & _ & H).
  destruct (H []) as (_ & Q). destruct (Q retry) as (s & E & G). exists (cut_device j k), s. split; [apply cut_for_good|]. split.
  - unfold tool_run. rewrite P. unfold status_with_output. change fresh with (Sink 0 []). rewrite E. destruct (process o w args stdin); try discriminate P; reflexivity.
  - rewrite G, C. reflexivity.
Qed.
Print Assumptions C94_printed_cut.
Example C94_case_more :
  tool_run no_order (rc_world "/rc.csv") [] (FileFails []) (lit "broken pipe") (fun _ => None) true (fun b => [b]) = (Sink 1 (lit "error: broken pipe" ++ [0x0A%N]), 0%N) /\
  tool_run no_order (rc_world "/rc.csv") [lit "xay"] (FileBytes []) [] (cut_device 1 1) false (fun b => map (fun x => [x]) b) = (Sink 2 (lit "x"), 101%N) /\
  into_inner (cut_device 1 1) (Sink 0 []) (lit "ab") = (Sink 2 (lit "ab"), false).
Proof. vm_compute. repeat split. Qed.
