(** Property C94: output that cannot be written. *)
From Coq Require Import String Lia.
From Verif Require Import Base BaseFacts Utf8 StrOps Corr Table Charset Yaml File Configuration Cli Csv Process OutputTool Ending WriteOut
  Spec FileSpec CsvSpec FileProps PyProps CsvProps PropsNeo PropsConverter PropsFile PropsCsv PropsConfig PropsProcess PropsEnding.
Local Open Scope string_scope.
Local Open Scope list_scope.

(** What was taken is a beginning of what should have been written. *)
Definition beginning (g full : list N) : Prop := exists r, full = g ++ r.
(** A device that never fails; one that, having failed once, takes nothing any more. *)
Definition reliable (d : device) : Prop := forall n, d n = None.
Definition fails_for_good (d : device) : Prop := forall n k, d n = Some k -> forall m, n < m -> d m = Some 0.

(** ** The pieces *)
Lemma concat_field f : List.concat (field_units f) = write_field f.
Proof.
  unfold field_units, write_field. destruct (existsb needs_quotes f).
  - cbn [List.concat app]. f_equal. rewrite concat_app. cbn [List.concat]. f_equal.
    induction f as [|b f IH]; [reflexivity|]. cbn [map List.concat flat_map]. rewrite IH. reflexivity.
  - induction f as [|b f IH]; [reflexivity|]. cbn [map List.concat app]. rewrite IH. reflexivity.
Qed.
Lemma concat_fields l : List.concat (fields_units l) = write_fields l.
Proof.
  induction l as [|f l IH]; [reflexivity|]. destruct l as [|g l]; [apply concat_field|].
  change (fields_units (f :: g :: l)) with (field_units f ++ [COMMA] :: fields_units (g :: l)).
  change (write_fields (f :: g :: l)) with (write_field f ++ COMMA :: write_fields (g :: l)).
  rewrite concat_app, concat_field. cbn [List.concat app]. rewrite IH. reflexivity.
Qed.
Definition small (u : list N) : Prop := 1 <= List.length u <= 2.
Lemma small_field f : Forall small (field_units f).
Proof.
  unfold field_units. destruct (existsb needs_quotes f).
  - constructor; [unfold small; cbn; lia|]. apply Forall_app. split.
    + apply Forall_forall. intros u I. apply in_map_iff in I. destruct I as (b & <- & _). unfold small. destruct (N.eqb b QUOTE); cbn; lia.
    + constructor; [unfold small; cbn; lia|constructor].
  - apply Forall_forall. intros u I. apply in_map_iff in I. destruct I as (b & <- & _). unfold small. cbn; lia.
Qed.
Lemma small_fields l : Forall small (fields_units l).
Proof.
  induction l as [|f l IH]; [constructor|]. destruct l as [|g l]; [apply small_field|].
  change (fields_units (f :: g :: l)) with (field_units f ++ [COMMA] :: fields_units (g :: l)).
  apply Forall_app. split; [apply small_field|]. constructor; [unfold small; cbn; lia|exact IH].
Qed.
Lemma small_concat us : Forall small us -> List.concat us = [] -> us = [].
Proof. intros F E. destruct F as [|u us S _]; [reflexivity|]. destruct u; [unfold small in S; cbn in S; lia|discriminate E]. Qed.
Lemma concat_record l : List.concat (record_units l) = write_record l.
Proof.
  unfold record_units, write_record. rewrite <- concat_fields. destruct (fields_units l) as [|u us] eqn:E; [reflexivity|].
  pose proof (small_fields l) as F. rewrite E in F.
  destruct (List.concat (u :: us)) as [|b bs] eqn:G; [apply (small_concat _ F) in G; discriminate G|].
  rewrite concat_app, G. reflexivity.
Qed.
Lemma small_record l : Forall small (record_units l).
Proof.
  unfold record_units. pose proof (small_fields l) as F. destruct (fields_units l) as [|u us].
  - repeat constructor.
  - apply Forall_app. split; [exact F|]. repeat constructor.
Qed.
Lemma concat_units o c : List.concat (csv_units o c) = to_csv_bytes o c.
Proof.
  unfold csv_units, to_csv_bytes. induction (to_csv_records o c) as [|row rows IH]; [reflexivity|].
  cbn [flat_map]. rewrite concat_app, concat_record, IH. reflexivity.
Qed.
Lemma small_units o c : Forall small (csv_units o c).
Proof.
  unfold csv_units. induction (to_csv_records o c) as [|row rows IH]; [constructor|].
  cbn [flat_map]. apply Forall_app. split; [apply small_record|exact IH].
Qed.
(** ** The buffer *)
Lemma fill_concat cap us : forall buf cs rest, fill cap buf us = (cs, rest) -> List.concat cs ++ rest = buf ++ List.concat us.
Proof.
  induction us as [|u us IH]; intros buf cs rest E; cbn [fill] in E.
  - injection E as <- <-. cbn. rewrite app_nil_r. reflexivity.
  - cbn [List.concat]. destruct (Nat.leb _ cap).
    + rewrite (IH _ _ _ E), <- app_assoc. reflexivity.
    + destruct (fill cap u us) as (cs', rest') eqn:F. injection E as <- <-. cbn [List.concat]. rewrite <- app_assoc, (IH _ _ _ F). reflexivity.
Qed.
Lemma fill_sizes cap us : 2 <= cap -> Forall small us -> forall buf cs rest, List.length buf <= cap -> fill cap buf us = (cs, rest) ->
  Forall (fun b => cap <= S (List.length b) /\ List.length b <= cap) cs /\ List.length rest <= cap.
Proof.
  intros C F. induction F as [|u us S F IH]; intros buf cs rest L E; cbn [fill] in E.
  - injection E as <- <-. split; [constructor|exact L].
  - destruct (Nat.leb (List.length buf + List.length u) cap) eqn:B.
    + apply Nat.leb_le in B. apply (IH (buf ++ u)); [rewrite app_length; exact B|exact E].
    + apply Nat.leb_gt in B. destruct (fill cap u us) as (cs', rest') eqn:G. injection E as <- <-.
      unfold small in S. destruct (IH u cs' rest' ltac:(lia) G) as (Q & R). split; [constructor; [lia|exact Q]|exact R].
Qed.
Lemma fill_fits cap us : forall buf, List.length (buf ++ List.concat us) <= cap -> fill cap buf us = ([], buf ++ List.concat us).
Proof.
  induction us as [|u us IH]; intros buf L; cbn [fill List.concat] in *; [rewrite app_nil_r; reflexivity|].
  rewrite app_assoc in *. assert (B : List.length buf + List.length u <= cap) by (rewrite !app_length in L; lia).
  apply Nat.leb_le in B. rewrite B. apply IH. exact L.
Qed.
Lemma capacity_big : 2 <= capacity.
Proof. unfold capacity. cbn. lia. Qed.

(** ** The device *)
Lemma write_all_ok d s b s1 : write_all d s b = (s1, true) -> got s1 = got s ++ b.
Proof. unfold write_all. destruct b as [|x b]; [intros E; injection E as <-; rewrite app_nil_r; reflexivity|]. destruct (d (used s)); intros E; [discriminate E|injection E as <-; reflexivity]. Qed.
Lemma firstn_split {A} n (l : list A) : exists r, l = firstn n l ++ r.
Proof. exists (skipn n l). symmetry. apply firstn_skipn. Qed.
Lemma write_all_some d s b s1 ok : write_all d s b = (s1, ok) -> exists g r, got s1 = got s ++ g /\ b = g ++ r.
Proof.
  unfold write_all. destruct b as [|x b]; [intros E; injection E as <- _; exists [], []; split; [rewrite app_nil_r|]; reflexivity|].
  destruct (d (used s)) as [k|]; intros E; injection E as <- _; cbn [got].
  - destruct (firstn_split (Nat.min k (pred (List.length (x :: b)))) (x :: b)) as (r & R). eexists _, r. split; [reflexivity|exact R].
  - exists (x :: b), []. rewrite app_nil_r. split; reflexivity.
Qed.
Lemma write_all_failed d s b s1 : fails_for_good d -> write_all d s b = (s1, false) -> forall m, used s1 <= m -> d m = Some 0.
Proof.
  intros G. unfold write_all. destruct b as [|x b]; [discriminate|]. destruct (d (used s)) as [k|] eqn:D; [|discriminate].
  intros E. injection E as <-. cbn [used]. intros m L. apply (G _ _ D). exact L.
Qed.
Lemma dead_write d s b s1 ok : (forall m, used s <= m -> d m = Some 0) -> write_all d s b = (s1, ok) -> got s1 = got s.
Proof.
  intros D. unfold write_all. destruct b as [|x b]; [intros E; injection E as <- _; reflexivity|]. rewrite (D (used s) (le_n _)).
  intros E. injection E as <- _. cbn. rewrite app_nil_r. reflexivity.
Qed.
Lemma flush_ok d s b s1 : flush d s b = (s1, true) -> got s1 = got s ++ b.
Proof.
  unfold flush. destruct (write_all d s b) as (s2, ok) eqn:W. destruct ok; [|discriminate].
  unfold dev_flush. intros E. injection E as <- _. cbn [got]. exact (write_all_ok _ _ _ _ W).
Qed.
Lemma flush_some d s b s1 ok : flush d s b = (s1, ok) -> exists g r, got s1 = got s ++ g /\ b = g ++ r.
Proof.
  unfold flush. destruct (write_all d s b) as (s2, ok') eqn:W. destruct (write_all_some _ _ _ _ _ W) as (g & r & Q & R).
  destruct ok'; unfold dev_flush; intros E; injection E as <- _; exists g, r; split; assumption.
Qed.
Lemma flush_dead d s b s1 ok : (forall m, used s <= m -> d m = Some 0) -> flush d s b = (s1, ok) -> got s1 = got s.
Proof.
  intros D. unfold flush. destruct (write_all d s b) as (s2, ok') eqn:W. pose proof (dead_write _ _ _ _ _ D W) as Q.
  destruct ok'; unfold dev_flush; intros E; injection E as <- _; exact Q.
Qed.
Lemma pass_on_ok d cs : forall s s1, pass_on d s cs = (s1, None) -> got s1 = got s ++ List.concat cs.
Proof.
  induction cs as [|b cs IH]; intros s s1; cbn [pass_on List.concat]; [intros E; injection E as <-; rewrite app_nil_r; reflexivity|].
  destruct (write_all d s b) as (s2, ok) eqn:W. destruct ok; [|discriminate]. intros E.
  rewrite (IH _ _ E), (write_all_ok _ _ _ _ W), <- app_assoc. reflexivity.
Qed.
Lemma pass_on_failed d cs : forall s s1 b, pass_on d s cs = (s1, Some b) ->
  exists s0 before after, cs = before ++ b :: after /\ got s0 = got s ++ List.concat before /\ write_all d s0 b = (s1, false).
Proof.
  induction cs as [|b cs IH]; intros s s1 b0; cbn [pass_on]; [discriminate|].
  destruct (write_all d s b) as (s2, ok) eqn:W. destruct ok.
  - intros E. destruct (IH _ _ _ E) as (s0 & before & after & -> & G & Q). exists s0, (b :: before), after. cbn [List.concat app].
    rewrite G, (write_all_ok _ _ _ _ W), <- app_assoc. repeat split. exact Q.
  - intros E. injection E as <- <-. exists s, [], cs. cbn. rewrite app_nil_r. repeat split. exact W.
Qed.
Lemma pass_on_reliable d cs s : reliable d -> exists s1, pass_on d s cs = (s1, None).
Proof.
  intros R. revert s. induction cs as [|b cs IH]; intros s; cbn [pass_on]; [exists s; reflexivity|].
  unfold write_all at 1. destruct b as [|x b]; [apply IH|]. rewrite R. apply IH.
Qed.

(** ** CSV *)
(** What a returned writer has given to the device and what it holds are together the export. If [into_inner] succeeds, the
    device has all of it. *)
Theorem C94_returned : forall o c d s buf, to_csv_writer_to o c d = CsvWriter s buf ->
  got s ++ buf = to_csv_bytes o c /\ List.length buf <= 8192 /\
  (forall s', into_inner d s buf = (s', true) -> got s' = to_csv_bytes o c) /\
  (forall s' ok, into_inner d s buf = (s', ok) -> beginning (got s') (to_csv_bytes o c)).
Proof.
  intros o c d s buf. unfold to_csv_writer_to. destruct (fill capacity [] (csv_units o c)) as (cs, rest) eqn:F.
  destruct (pass_on d fresh cs) as (s1, [b|]) eqn:P; [discriminate|]. intros E. injection E as <- <-.
  pose proof (fill_concat _ _ _ _ _ F) as C. pose proof (pass_on_ok _ _ _ _ P) as G. cbn [fresh got app] in G, C. rewrite concat_units in C.
  destruct (fill_sizes _ _ capacity_big (small_units o c) _ _ _ (Nat.le_0_l capacity : List.length (@nil N) <= capacity) F) as (_ & L).
  rewrite G, C. split; [reflexivity|]. split; [exact L|]. split.
  - intros s' I. rewrite (flush_ok _ _ _ _ I), G. exact C.
  - intros s' ok I. destruct (flush_some _ _ _ _ _ I) as (g & r & Q & R). exists r. rewrite Q, G, <- C, R, app_assoc. reflexivity.
Qed.
Print Assumptions C94_returned.
(** A device that never fails gets the whole export, also if the writer is dropped. *)
Theorem C94_reliable : forall o c d, reliable d -> exists s buf, to_csv_writer_to o c d = CsvWriter s buf /\
  got (dropped d s buf) = to_csv_bytes o c /\ exists s', into_inner d s buf = (s', true).
Proof.
  intros o c d R. destruct (to_csv_writer_to o c d) as [s buf|s] eqn:E.
  - exists s, buf. split; [reflexivity|]. assert (I : exists s', into_inner d s buf = (s', true)).
    { unfold into_inner, flush, write_all, dev_flush. destruct buf as [|x buf]; rewrite ?R; eexists; reflexivity. }
    split; [|exact I]. destruct I as (s' & I). unfold dropped. change (flush d s buf) with (into_inner d s buf). rewrite I. cbn [fst].
    apply (C94_returned _ _ _ _ _ E). exact I.
  - exfalso. unfold to_csv_writer_to in E. destruct (fill capacity [] (csv_units o c)) as (cs, rest). destruct (pass_on_reliable d cs fresh R) as (s1 & Q). rewrite Q in E. discriminate E.
Qed.
Print Assumptions C94_reliable.
(** An export of at most 8192 bytes is only put into the buffer: no device can make [to_csv_writer] fail, and the device
    has got nothing when it returns. With a longer export the device is used. *)
Theorem C94_short : forall o c d, (List.length (to_csv_bytes o c) <= 8192 <-> to_csv_writer_to o c d = CsvWriter fresh (to_csv_bytes o c)).
Proof.
  intros o c d. split.
  - intros L. unfold to_csv_writer_to. rewrite fill_fits by (cbn [app]; rewrite concat_units; exact L). cbn [app pass_on]. rewrite concat_units. reflexivity.
  - intros E. apply (C94_returned _ _ _ _ _ E).
Qed.
Print Assumptions C94_short.
(** A device that takes nothing: [to_csv_writer] panics exactly if the export is longer than that. *)
Theorem C94_no_room : forall o c d, (forall n, d n = Some 0) ->
  (8192 < List.length (to_csv_bytes o c) <-> exists s, to_csv_writer_to o c d = CsvPanicked s /\ got s = []).
Proof.
  intros o c d D. split.
  - intros L. destruct (to_csv_writer_to o c d) as [s buf|s] eqn:E.
    + exfalso. assert (G : got s = []).
      { unfold to_csv_writer_to in E. destruct (fill capacity [] (csv_units o c)) as (cs, rest).
        assert (P : forall cs s s1, pass_on d s cs = (s1, None) -> got s1 = got s).
        { clear -D. induction cs as [|b cs IH]; intros s s1; cbn [pass_on]; [intros E; injection E as <-; reflexivity|].
          destruct (write_all d s b) as (s2, ok) eqn:W. destruct ok; [|discriminate]. intros E. rewrite (IH _ _ E). exact (dead_write _ _ _ _ _ (fun m _ => D m) W). }
        destruct (pass_on d fresh cs) as (s1, [b|]) eqn:Q; [discriminate|]. injection E as <- <-. exact (P _ _ _ Q). }
      destruct (C94_returned _ _ _ _ _ E) as (A & B & _). rewrite G in A. cbn [app] in A. rewrite <- A in L. lia.
    + exists s. split; [reflexivity|]. unfold to_csv_writer_to in E. destruct (fill capacity [] (csv_units o c)) as (cs, rest).
      assert (P : forall cs s s1 b, pass_on d s cs = (s1, Some b) -> got s1 = got s).
      { clear -D. induction cs as [|b cs IH]; intros s s1 b0; cbn [pass_on]; [discriminate|].
        destruct (write_all d s b) as (s2, ok) eqn:W. pose proof (dead_write _ _ _ _ _ (fun m _ => D m) W) as Q.
        destruct ok; [intros E; rewrite (IH _ _ _ E); exact Q|intros E; injection E as <- _; exact Q]. }
      destruct (pass_on d fresh cs) as (s1, [b|]) eqn:Q; [|discriminate]. injection E as <-.
      destruct (flush d s1 b) as (s2, ok) eqn:F. cbn [fst]. rewrite (flush_dead _ _ _ _ _ (fun m _ => D m) F). exact (P _ _ _ _ Q).
  - intros (s & E & _). destruct (Nat.le_gt_cases (List.length (to_csv_bytes o c)) 8192) as [L|L]; [|exact L].
    apply (C94_short o c d) in L. rewrite L in E. discriminate E.
Qed.
Print Assumptions C94_no_room.
(** A device that has failed for good holds a beginning of the export, whatever is done with the writer. *)
Theorem C94_beginning : forall o c d, fails_for_good d ->
  match to_csv_writer_to o c d with
  | CsvPanicked s => beginning (got s) (to_csv_bytes o c)
  | CsvWriter s buf => beginning (got s) (to_csv_bytes o c) /\ beginning (got (dropped d s buf)) (to_csv_bytes o c)
  end.
Proof.
  intros o c d G. destruct (to_csv_writer_to o c d) as [s buf|s] eqn:E.
  - destruct (C94_returned _ _ _ _ _ E) as (A & _ & _ & B). split; [exists buf; symmetry; exact A|].
    unfold dropped. destruct (flush d s buf) as (s', ok) eqn:F. cbn [fst]. exact (B s' ok F).
  - unfold to_csv_writer_to in E. destruct (fill capacity [] (csv_units o c)) as (cs, rest) eqn:F.
    destruct (pass_on d fresh cs) as (s1, [b|]) eqn:P; [|discriminate]. injection E as <-.
    destruct (pass_on_failed _ _ _ _ _ P) as (s0 & before & after & -> & Q & W).
    pose proof (fill_concat _ _ _ _ _ F) as C. cbn [app] in C. rewrite concat_units in C. cbn [fresh got app] in Q.
    destruct (flush d s1 b) as (s2, ok) eqn:H. cbn [fst]. rewrite (flush_dead _ _ _ _ _ (write_all_failed _ _ _ _ G W) H).
    destruct (write_all_some _ _ _ _ _ W) as (g & r & R & B). rewrite R, Q, <- C, concat_app. cbn [List.concat]. rewrite B.
    exists (r ++ List.concat after ++ rest). rewrite !app_assoc. reflexivity.
Qed.
Print Assumptions C94_beginning.
(** ** Expectations that fail *)
(** One long item: 9000 letters a replaced by b. *)
Definition long_corr : corr := synth [Item (repeat 0x61%N 9000) (lit "b")].
(** Dropping the writer tells nobody that the export is incomplete. *)
Theorem C94_dropped_refuted : exists o c d s buf, fails_for_good d /\ to_csv_writer_to o c d = CsvWriter s buf /\ got (dropped d s buf) <> to_csv_bytes o c.
Proof.
  exists no_order, (synth [Item (lit "a") (lit "b")]), (fun _ => Some 0), fresh, (lit "a,b" ++ [LF]). split; [intros n k _ m _; reflexivity|].
  split; [apply C94_short; vm_compute; lia|]. vm_compute. discriminate.
Qed.
Print Assumptions C94_dropped_refuted.
(** A device that recovers gets a buffer twice: what it holds need not be a beginning of the export. *)
Theorem C94_recovering_refuted : exists o c d s, to_csv_writer_to o c d = CsvPanicked s /\ d 1 = None /\ ~ beginning (got s) (to_csv_bytes o c).
Proof.
  exists no_order, long_corr, (fun n => match n with 0 => Some 8191 | _ => None end). eexists. split; [vm_compute; reflexivity|]. split; [reflexivity|].
  intros (r & E). apply (f_equal (fun l => nth 9000 l 0%N)) in E. rewrite app_nth1 in E by (vm_compute; lia). vm_compute in E. discriminate E.
Qed.
Print Assumptions C94_recovering_refuted.
(** ** What a cut CSV file loads as *)
Lemma read_split b : forall s rec cur, exists l, read s rec cur b = read_complete s rec cur b ++ l /\ List.length l <= 1.
Proof.
  induction b as [|x b IH]; intros s rec cur; cbn [read read_complete].
  - destruct s; eexists; (split; [reflexivity|cbn; lia]).
  - destruct (step s x) as (s', a). destruct a; try apply IH. destruct (IH s' [] []) as (l & E & L). exists l. cbn [app]. rewrite E. split; [reflexivity|exact L].
Qed.
Lemma read_more b r : forall s rec cur, exists l, read s rec cur (b ++ r) = read_complete s rec cur b ++ l.
Proof.
  induction b as [|x b IH]; intros s rec cur; cbn [read read_complete app].
  - eexists; reflexivity.
  - destruct (step s x) as (s', a). destruct a; try apply IH. destruct (IH s' [] []) as (l & E). exists l. cbn [app]. rewrite E. reflexivity.
Qed.
Lemma strip_cut g r : g <> [] -> strip_text (g ++ r) = strip_text g ++ r.
Proof. destruct g as [|c g]; [contradiction|]. intros _. cbn [app strip_text]. destruct (N.eqb c 0xFEFF); reflexivity. Qed.
Lemma text_rows w p t : valid_str t -> file_at w p (FileBytes (encode t)) ->
  exists items, rows_items (tl (read StartRecord [] [] (strip_text t))) items /\ table_from_csv_path w p = Ok (Table items (OriginFile p)).
Proof.
  intros V F. unfold file_at in F. rewrite (csv_of_text t V) in F.
  destruct (rows_items_total (tl (read StartRecord [] [] (strip_text t)))) as (items & R).
  { intros H. apply (read_nonempty (strip_text t) StartRecord [] []). destruct (read StartRecord [] [] (strip_text t)); [destruct H|right; exact H]. }
  exists items. split; [exact R|]. apply C39_iff. eexists. eexists. split; [exact F|].
  split; [destruct (read StartRecord [] [] (strip_text t)); discriminate|].
  split; [|split; [exact R|reflexivity]]. destruct (read StartRecord [] [] (strip_text t)); reflexivity.
Qed.
Lemma rows_split l m items : rows_items (l ++ m) items -> exists a b, items = a ++ b /\ rows_items l a /\ rows_items m b.
Proof.
  intros (parts & F & ->). apply Forall2_app_inv_l in F. destruct F as (p1 & p2 & F1 & F2 & ->).
  exists (List.concat p1), (List.concat p2). rewrite concat_app. split; [reflexivity|]. split; eexists; (split; [eassumption|reflexivity]).
Qed.
Lemma rows_one l items : List.length l <= 1 -> rows_items l items -> exists t, forall it, In it items -> to it = t.
Proof.
  intros L (parts & F & ->). destruct F as [|row part rows parts (fs & t & -> & ->) F]; [exists []; intros it []|].
  destruct F; [|cbn in L; lia]. exists t. intros it I. cbn [List.concat] in I. rewrite app_nil_r in I.
  apply in_map_iff in I. destruct I as (f & <- & _). reflexivity.
Qed.
(** A file cut between two characters loads. All its items are items of the whole file, in the same order, except perhaps
    the last ones, which have one replacement: those of the row in which the cut is. *)
Theorem C94_cut : forall w w' p g r, valid_str (g ++ r) -> file_at w p (FileBytes (encode (g ++ r))) -> file_at w' p (FileBytes (encode g)) ->
  exists kept lost new, table_from_csv_path w p = Ok (Table (kept ++ lost) (OriginFile p)) /\
    table_from_csv_path w' p = Ok (Table (kept ++ new) (OriginFile p)) /\
    exists t, forall it, In it new -> to it = t.
Proof.
  intros w w' p g r V F F'. pose proof V as V'. apply valid_app in V'. destruct V' as (Vg & _).
  destruct (text_rows _ _ _ V F) as (items & R & E). destruct (text_rows _ _ _ Vg F') as (items' & R' & E').
  rewrite E, E'. clear E E' F F' V Vg. destruct g as [|c g].
  - destruct R' as (parts & P & ->). cbn in P. inversion P. exists [], items, []. repeat split. exists []. intros it [].
  - rewrite strip_cut in R by discriminate.
    destruct (read_split (strip_text (c :: g)) StartRecord [] []) as (l & Q & L). destruct (read_more (strip_text (c :: g)) r StartRecord [] []) as (m & Q').
    assert (R1 := R). rewrite Q in R'. assert (R2 : rows_items (tl (read_complete StartRecord [] [] (strip_text (c :: g)) ++ m)) items) by (rewrite <- Q'; exact R1). clear R R1 Q'. rename R2 into R.
    destruct (read_complete StartRecord [] [] (strip_text (c :: g))) as [|h rows].
    + cbn [app] in R'. destruct l as [|x [|y l]]; [| |cbn in L; lia]; destruct R' as (parts & P & ->); cbn in P; inversion P; exists [], items, []; repeat split; exists []; intros it [].
    + cbn [tl app] in R, R'. apply rows_split in R. apply rows_split in R'.
      destruct R as (a & b & -> & A & B). destruct R' as (a' & b' & -> & A' & B').
      rewrite (rows_unique _ _ _ A' A). exists a, b, b'. repeat split. exact (rows_one _ _ L B').
Qed.
Print Assumptions C94_cut.
(** So a cut export, loaded, has items of the exported table and at the end perhaps others. *)
Theorem C94_cut_export : forall o c w p g r, valid_items (c o) -> to_csv_bytes o c = encode (g ++ r) -> valid_str (g ++ r) -> file_at w p (FileBytes (encode g)) ->
  exists kept new, table_from_csv_path w p = Ok (Table (kept ++ new) (OriginFile p)) /\ (forall it, In it kept -> In it (c o)) /\
    exists t, forall it, In it new -> to it = t.
Proof.
  intros o c w p g r Vi E V F. set (w0 := csv_world (csv_of_file (FileBytes (to_csv_bytes o c)))).
  assert (F0 : file_at w0 p (FileBytes (to_csv_bytes o c))) by reflexivity. pose proof F0 as F1. rewrite E in F1.
  destruct (C94_cut w0 w p g r V F1 F) as (kept & lost & new & A & B & T). exists kept, new. split; [exact B|]. split; [|exact T].
  intros it I. destruct (C71_reload o c w0 p Vi F0) as (t & l & Q & P & _). rewrite A in Q. apply Ok_inj in Q. subst t.
  eapply Permutation_in; [exact P|]. apply in_or_app. left. cbn [table_items]. apply in_or_app. left. exact I.
Qed.
Print Assumptions C94_cut_export.
(** The last ones can be items the table never had. *)
Definition cut_corr : corr := synth [Item (lit "x") (lit "y"); Item (lit "a") (lit "z"); Item (lit "b") (lit "z")].
Theorem C94_cut_refuted : exists o c w p g r t it, valid_items (c o) /\ to_csv_bytes o c = encode (g ++ r) /\ file_at w p (FileBytes (encode g)) /\
  table_from_csv_path w p = Ok t /\ In it (table_items t) /\ ~ In it (c o).
Proof.
  exists no_order, cut_corr, (bytes_world (encode (lit "x,y" ++ LF :: lit "a,b"))), ex_path, (lit "x,y" ++ LF :: lit "a,b"), (lit ",z" ++ [LF]).
  eexists. exists (Item (lit "a") (lit "b")). split; [repeat (constructor; [split; repeat (constructor; [reflexivity|]); constructor|]); constructor|].
  split; [vm_compute; reflexivity|]. split; [reflexivity|]. split; [vm_compute; reflexivity|]. split; [left; reflexivity|].
  intros [H|[H|[H|[]]]]; discriminate H.
Qed.
Print Assumptions C94_cut_refuted.

(** ** The standard output of the command line tool *)
Lemma print_ok d retry cs : forall s s1, print_pieces d retry s cs = (s1, true) -> got s1 = got s ++ List.concat cs.
Proof.
  induction cs as [|b cs IH]; intros s s1; cbn [print_pieces List.concat]; [intros E; injection E as <-; rewrite app_nil_r; reflexivity|].
  destruct (write_all d s b) as (s2, ok) eqn:W. destruct ok; [|discriminate]. intros E. rewrite (IH _ _ E), (write_all_ok _ _ _ _ W), <- app_assoc. reflexivity.
Qed.
Lemma print_some d retry cs : forall s s1 ok, print_pieces d retry s cs = (s1, ok) -> exists g r, got s1 = got s ++ g /\ List.concat cs = g ++ r.
Proof.
  induction cs as [|b cs IH]; intros s s1 ok; cbn [print_pieces List.concat]; [intros E; injection E as <- _; exists [], []; split; [rewrite app_nil_r|]; reflexivity|].
  destruct (write_all d s b) as (s2, o2) eqn:W. destruct o2.
  - intros E. destruct (IH _ _ _ E) as (g & r & Q & R). exists (b ++ g), r. rewrite Q, (write_all_ok _ _ _ _ W), R, !app_assoc. split; reflexivity.
  - destruct (write_all_some _ _ _ _ _ W) as (g & r & Q & R). intros E. injection E as E _. destruct retry.
    + destruct (write_all d s2 (skipn (List.length (got s2) - List.length (got s)) b)) as (s3, o3) eqn:X. cbn [fst] in E. subst s3.
      destruct (write_all_some _ _ _ _ _ X) as (g' & r' & Q' & R').
      rewrite Q, R, app_length in R'. replace (List.length (got s) + List.length g - List.length (got s)) with (List.length g) in R' by lia.
      rewrite skipn_app, skipn_all, Nat.sub_diag in R'. cbn [skipn app] in R'.
      exists (g ++ g'), (r' ++ List.concat cs). rewrite Q', Q, R, R', <- !app_assoc. split; reflexivity.
    + subst s1. exists g, (r ++ List.concat cs). rewrite R, app_assoc. split; [exact Q|reflexivity].
Qed.
Lemma print_reliable d retry cs : reliable d -> forall s, snd (print_pieces d retry s cs) = true.
Proof.
  intros R. induction cs as [|b cs IH]; intros s; [reflexivity|]. cbn [print_pieces]. unfold write_all. destruct b as [|x b]; [apply IH|]. rewrite R. apply IH.
Qed.
(** If the tool prints something, what arrives is a beginning of it; the status is 0 exactly if nothing failed, and then all of
    it has arrived; otherwise it is 101. If the tool prints nothing (help, version and usage errors are clap's), the device makes
    no difference. *)
Theorem C94_stdout : forall o w args stdin message d retry cs b, printed_bytes (process o w args stdin) message = Some b -> List.concat cs = b ->
  forall s n, status_with_output o w args stdin d retry cs = (s, n) ->
  beginning (got s) b /\ (n = 0%N \/ n = 101%N) /\ (n = 0%N -> got s = b) /\ (reliable d -> n = 0%N).
Proof.
  intros o w args stdin message d retry cs b P C s n E. unfold status_with_output in E.
  assert (X : (let '(s, ok) := print_pieces d retry fresh cs in (s, if ok then 0%N else 101%N)) = (s, n)) by (destruct (process o w args stdin); try discriminate P; exact E).
  clear E. pose proof (print_reliable d retry cs) as D. specialize (fun R => D R fresh). destruct (print_pieces d retry fresh cs) as (s1, ok) eqn:Q. injection X as <- <-.
  destruct (print_some _ _ _ _ _ _ Q) as (g & r & G & R). cbn [fresh got app] in G. rewrite C in R.
  split; [exists r; rewrite G; exact R|]. split; [destruct ok; [left|right]; reflexivity|]. split.
  - destruct ok; [|discriminate]. intros _. pose proof (print_ok _ _ _ _ _ Q) as K. cbn [fresh got app] in K. rewrite K. exact C.
  - intros L. specialize (D L). cbn [snd] in D. rewrite D. reflexivity.
Qed.
Print Assumptions C94_stdout.
Theorem C94_no_output : forall o w args stdin message d retry cs, printed_bytes (process o w args stdin) message = None ->
  status_with_output o w args stdin d retry cs = (fresh, exit_status o w args stdin).
Proof. intros o w args stdin message d retry cs P. unfold status_with_output. destruct (process o w args stdin); try discriminate P; reflexivity. Qed.
Print Assumptions C94_no_output.
(** On a device that does not fail, the status is the one of C89. *)
Theorem C94_status_reliable : forall o w args stdin d retry cs, reliable d -> snd (status_with_output o w args stdin d retry cs) = exit_status o w args stdin.
Proof.
  intros o w args stdin d retry cs R. pose proof (print_reliable d retry cs R fresh) as D. destruct (C89_status o w args stdin) as (_ & _ & Z & _).
  unfold status_with_output. destruct (process o w args stdin) as [|b| |] eqn:P; try reflexivity; destruct (print_pieces d retry fresh cs) as (s, ok); cbn [snd] in *; rewrite D; symmetry; apply Z; right; right; [left; exists b; reflexivity|right; reflexivity].
Qed.
Print Assumptions C94_status_reliable.
(** The status does not say that something is missing: it is 101 too if the second attempt, at the end of the process,
    completes the output. *)
Definition ex_device : device := fun n => match n with 0 => Some 1 | _ => None end.
Theorem C94_status_incomplete_refuted : exists o w args stdin b d cs s, process o w args stdin = Output b /\ List.concat cs = b /\
  status_with_output o w args stdin d true cs = (s, 101%N) /\ got s = b.
Proof.
  exists no_order, (rc_world "/rc.csv"), [lit "xay"], (FileBytes []), (lit "xby" ++ [LF]), ex_device, [lit "xby" ++ [LF]]. eexists.
  split; [vm_compute; reflexivity|]. split; [reflexivity|]. split; [vm_compute; reflexivity|reflexivity].
Qed.
Print Assumptions C94_status_incomplete_refuted.

(** An export of 9003 bytes on a device that fails at its second use, after ten bytes: the writer is returned, [into_inner] fails
    and the device has 8202 bytes. A cut export. A full device as standard output of the tool. *)
Definition second_fails : device := fun n => match n with 0 => None | 1 => Some 10 | _ => Some 0 end.
Example C94_case :
  fails_for_good second_fails /\ List.length (to_csv_bytes no_order long_corr) = 9003 /\
  (exists s buf, to_csv_writer_to no_order long_corr second_fails = CsvWriter s buf /\ List.length (got s) = 8192 /\
    snd (into_inner second_fails s buf) = false /\ List.length (got (dropped second_fails s buf)) = 8202) /\
  (exists s, to_csv_writer_to no_order long_corr (fun _ => Some 0) = CsvPanicked s) /\
  valid_items (cut_corr no_order) /\ to_csv_bytes no_order cut_corr = encode ((lit "x,y" ++ LF :: lit "a") ++ lit ",b,z" ++ [LF]) /\
  table_from_csv_path (bytes_world (encode (lit "x,y" ++ LF :: lit "a"))) ex_path = Ok (Table [] (OriginFile ex_path)) /\
  status_with_output no_order (rc_world "/rc.csv") [lit "xay"] (FileBytes []) (fun _ => Some 0) true [lit "xby" ++ [LF]] = (Sink 2 [], 101%N) /\
  status_with_output no_order (rc_world "/rc.csv") [lit "xay"] (FileBytes []) (fun _ => None) true [lit "xb"; lit "y" ++ [LF]] = (Sink 2 (lit "xby" ++ [LF]), 0%N).
Proof.
  split. { intros [|[|n]] k E [|[|m]] L; try lia; try discriminate E; reflexivity. }
  split; [vm_compute; reflexivity|]. split.
  { eexists. eexists. split; [vm_compute; reflexivity|]. repeat split; vm_compute; reflexivity. }
  split; [eexists; vm_compute; reflexivity|]. split; [repeat (constructor; [split; repeat (constructor; [reflexivity|]); constructor|]); constructor|].
  repeat split; vm_compute; reflexivity.
Qed.
