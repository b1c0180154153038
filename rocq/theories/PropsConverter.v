(** Properties C01-C06: table conversion. *)
From Verif Require Import Base Utf8 Corr Position Table Converter ModifierKind ChanomaModel Spec
  ConverterProps.

Definition no_order : sched := fun _ => [].
(** Another iteration order: always takes the second remaining entry. *)
Definition other_order : sched := fun _ => [1; 1; 1; 1; 1; 1].
Definition ex_items : list item :=
  [Item (lit "a") (lit "A"); Item [0x3042]%N (lit "b"); Item (lit "a") (lit "Z")].
Definition ex_table : table := table_from_corr ex_items OriginNew.

(** C01 *)
Theorem C01_table_pointwise : forall dbg o t c s,
  chanoma_from_table t = Ok c ->
  exists out, normalize dbg o c s = Ok out /\ pointwise (last_match (table_items t)) s out.
Proof. exact C01_table. Qed.
Print Assumptions C01_table_pointwise.
Theorem C01_map_pointwise : forall dbg o cc s,
  NoDup (map fst cc) ->
  exists out, normalize dbg o [MConv cc] s = Ok out /\ pointwise (fun c t => In (c, t) cc) s out.
Proof. exact C01_map. Qed.
Print Assumptions C01_map_pointwise.
Theorem C01_order_independent : forall dbg dbg' o o' cc s,
  normalize dbg o [MConv cc] s = normalize dbg' o' [MConv cc] s.
Proof. exact C01_order. Qed.
Print Assumptions C01_order_independent.
Example C01_case : exists c, chanoma_from_table ex_table = Ok c /\
  normalize false no_order c (lit "xaya" ++ [0x3042]%N) = Ok (lit "xZyZb") /\
  normalize true other_order c (lit "xaya" ++ [0x3042]%N) = Ok (lit "xZyZb").
Proof. eexists. repeat split; vm_compute; reflexivity. Qed.
Example C01_map_case : NoDup (map fst [(97, 98); (98, 97)]%N).
Proof. repeat constructor; cbn; intuition discriminate. Qed.

(** C02 *)
Theorem C02_positions_exact : forall o t c s,
  chanoma_from_table t = Ok c ->
  exists out ps m, normalize_with_positions o c s = Ok [Record m out ps] /\
    (forall dbg o', normalize dbg o' c s = Ok out) /\ exact_positions (last_match (table_items t)) s ps.
Proof. exact C02_table. Qed.
Print Assumptions C02_positions_exact.
Theorem C02_map_positions_exact : forall o cc s,
  NoDup (map fst cc) ->
  exists out ps, normalize_with_positions o [MConv cc] s = Ok [Record (MConv cc) out ps] /\
    (forall dbg o', normalize dbg o' [MConv cc] s = Ok out) /\ exact_positions (fun c t => In (c, t) cc) s ps.
Proof. exact C02_map. Qed.
Print Assumptions C02_map_positions_exact.
Example C02_case : exists c m, chanoma_from_table ex_table = Ok c /\
  normalize_with_positions other_order c ([0x3042]%N ++ lit "xa" ++ [0x3042]%N) =
  Ok [Record m (lit "bxZb")
        [Pos (lit "a") (lit "Z") 2 1 4 1 ; Pos [0x3042]%N (lit "b") 0 3 0 1; Pos [0x3042]%N (lit "b") 3 3 5 1]].
Proof. exists [MConv [(97, 90); (0x3042, 98)]%N], (MConv [(97, 90); (0x3042, 98)]%N). split; vm_compute; reflexivity. Qed.

(** C03 *)
Theorem C03_positions_replay : forall o t c s m out ps ps',
  chanoma_from_table t = Ok c ->
  normalize_with_positions o c s = Ok [Record m out ps] ->
  Permutation ps' ps ->
  fold_left apply_entry ps' s = out /\
  forall p, In p ps -> cut (p_utf8_index p) (p_length p) (encode s) = encode (p_from p) /\
                       cut (p_index p) (p_utf8_length p) s = p_from p.
Proof. exact C03_replay. Qed.
Print Assumptions C03_positions_replay.
Example C03_case :
  fold_left apply_entry [Pos (lit "a") (lit "Z") 2 1 4 1 ; Pos [0x3042]%N (lit "b") 0 3 0 1; Pos [0x3042]%N (lit "b") 3 3 5 1]
    ([0x3042]%N ++ lit "xa" ++ [0x3042]%N) = lit "bxZb".
Proof. reflexivity. Qed.

(** C04 *)
Theorem C04_last_item_wins : forall ts cc s dbg o, from_tables ts = Ok cc ->
  exists out, normalize dbg o [MConv cc] s = Ok out /\ pointwise (last_match (tables_items ts)) s out.
Proof. exact C04_last. Qed.
Print Assumptions C04_last_item_wins.
Example C04_case : exists cc,
  from_tables [ex_table; table_from_corr [Item (lit "xyz") (lit "QR"); Item [0x3042]%N (lit "c")] OriginNew] = Ok cc /\
  normalize false no_order [MConv cc] (lit "axy" ++ [0x3042]%N) = Ok (lit "ZQyc").
Proof. eexists. split; vm_compute; reflexivity. Qed.
Example C04_last_match_case : last_match ex_items 97%N 90%N /\ ~ last_match ex_items 97%N 65%N.
Proof.
  split.
  - exists [Item (lit "a") (lit "A"); Item [0x3042]%N (lit "b")], (Item (lit "a") (lit "Z")), [].
    repeat split; [eexists; reflexivity|eexists; reflexivity|constructor].
  - intros H. assert (E := TableFacts.last_match_unique ex_items 97%N 65%N 90%N H). 
    assert (65 = 90)%N; [|discriminate]. apply E.
    exists [Item (lit "a") (lit "A"); Item [0x3042]%N (lit "b")], (Item (lit "a") (lit "Z")), [].
    repeat split; [eexists; reflexivity|eexists; reflexivity|constructor].
Qed.

(** C05 *)
Theorem C05_builds_iff_no_empty : forall ts,
  (from_tables ts = Panic <-> exists t it, In t ts /\ In it (table_items t) /\ (from it = [] \/ to it = [])) /\
  (from_tables ts <> Panic -> exists cc, from_tables ts = Ok cc).
Proof. exact C05_iff. Qed.
Print Assumptions C05_builds_iff_no_empty.
Theorem C05_chanoma_panics_iff : forall t, chanoma_from_table t = Panic <-> from_tables [t] = Panic.
Proof. exact chanoma_from_table_panic. Qed.
Print Assumptions C05_chanoma_panics_iff.
Example C05_case : chanoma_from_table (table_from_corr [Item (lit "a") (lit "b"); Item [] (lit "b")] OriginNew) = Panic
  /\ chanoma_from_table ex_table <> Panic.
Proof. split; [reflexivity|discriminate]. Qed.

(** C06 *)
Theorem C06_idempotent_iff : forall t c,
  chanoma_from_table t = Ok c ->
  ((forall dbg o dbg' o' s out, normalize dbg o c s = Ok out -> normalize dbg' o' c out = Ok out)
   <-> (forall x y z, last_match (table_items t) x y -> last_match (table_items t) y z -> z = y)).
Proof. exact C06_iff. Qed.
Print Assumptions C06_idempotent_iff.
(** A table for which one pass is not enough. *)
Example C06_case_not : exists c, chanoma_from_table (table_from_corr [Item (lit "a") (lit "b"); Item (lit "b") (lit "c")] OriginNew) = Ok c
  /\ normalize false no_order c (lit "a") = Ok (lit "b") /\ normalize false no_order c (lit "b") = Ok (lit "c").
Proof. eexists. repeat split; vm_compute; reflexivity. Qed.
