(** Model of /repo/src/chanoma.rs (configuration loading is in Configuration.v). *)
From Verif Require Import Base Corr Table Charset Converter Neologdn ModifierKind.

(** Lines 12-14 *)
Definition chanoma := list modifier.
(** Lines 30-34 *)
Definition chanoma_new : chanoma := [].
(** Lines 186-191: [all_characters_set] *)
Definition all_characters_set (o : sched) : outcome modifier :=
  let table := builder_preset o table_new in
  cc <- from_tables [table] ;; Ok (MConv cc).
(** Lines 69-73 *)
Definition chanoma_preset (o : sched) : outcome chanoma := m <- all_characters_set o ;; Ok [m].
(** Lines 83-86 *)
Definition use_preset (o : sched) (c : chanoma) : outcome chanoma :=
  m <- all_characters_set o ;; Ok (c ++ [m]).
(** Lines 95-99 *)
Definition chanoma_neologdn (o : sched) : outcome chanoma := n <- neologdn_new o ;; Ok [MNeo n].
(** Lines 109-112 *)
Definition use_neologdn (o : sched) (c : chanoma) : outcome chanoma :=
  n <- neologdn_new o ;; Ok (c ++ [MNeo n]).
(** Lines 164-168 *)
Definition chanoma_from_table (t : table) : outcome chanoma :=
  cc <- from_tables [t] ;; Ok [MConv cc].
(** Lines 180-184 *)
Definition add_table (t : table) (c : chanoma) : outcome chanoma :=
  cc <- from_tables [t] ;; Ok (c ++ [MConv cc]).

(** Lines 124-126: the fold of [normalize]; the [i]-th modifier runs under schedule [sub o i]. *)
Fixpoint normalize_fold (o : sched) (i : nat) (ms : list modifier) (acc : str) : outcome str :=
  match ms with
  | [] => Ok acc
  | m :: r => acc' <- modify (sub o i) m acc ;; normalize_fold o (S i) r acc'
  end.

(** Lines 141-153: the loop of [normalize_with_positions]. *)
Fixpoint normalize_records (o : sched) (i : nat) (ms : list modifier) (text : str)
  : outcome (list record) :=
  match ms with
  | [] => Ok []
  | m :: r =>
      result <- modify_with_positions (sub o i) m text ;;
      rest <- normalize_records o (S i) r (r_text result) ;;
      Ok (result :: rest)
  end.
Definition normalize_with_positions (o : sched) (c : chanoma) (text : str) : outcome (list record) :=
  normalize_records o 0 c text.

(** /repo/src/modifier.rs:74-76: [ModifiedRecords::text] *)
Definition records_text (rs : list record) : outcome str :=
  match rev rs with [] => Panic | r :: _ => Ok (r_text r) end.

(** Lines 122-130: [normalize]; [dbg] is [log_enabled!(Debug)]. *)
Definition normalize (dbg : bool) (o : sched) (c : chanoma) (text : str) : outcome str :=
  if negb dbg then normalize_fold o 0 c text
  else rs <- normalize_with_positions o c text ;; records_text rs.
