(** Model of /repo/src/modifier/neologdn.rs. *)
From Verif Require Import Base StrOps Corr CharsetData Charset Table Position
  Converter Eliminator Reducer Dotted Ligature.

(** Lines 14-21.  The stateless [space_eliminater] is left out. *)
Record neologdn := Neo {
  neo_conv : converter; neo_red : char; neo_elim : eliminator; neo_lig : ligature }.

(** Line 172 *)
Definition CHOONPU : char := 0x30FC%N.

(** Line 161: [ALL - &Punctuations::EQUAL_SIGN + &CHOONPUS + &HYPHENS] *)
Definition neologdn_corr (o : sched) : list item :=
  let c := synth (corr_sub (sub o 0) ALL Punctuations_EQUAL_SIGN) in
  let c := synth (corr_add (sub o 1) c CHOONPUS) in
  corr_add (sub o 2) c HYPHENS.

(** Lines 163-169: the ligature map is filled by successive inserts. *)
Definition neologdn_lig : ligature :=
  let m := fold_left (fun m ft => hm_insert str_eqb (fst ft) (snd ft) m) KANA_TEN [] in
  fold_left (fun m ft => hm_insert str_eqb (fst ft) (snd ft) m) KANA_MARU m.

(** Lines 160-177: [Neologdn::new] *)
Definition neologdn_new (o : sched) : outcome neologdn :=
  let table := table_from_corr (neologdn_corr o) OriginNew in
  cc <- from_tables [table] ;;
  Ok {| neo_conv := cc; neo_red := CHOONPU; neo_elim := elim_from_chars TILDES;
        neo_lig := neologdn_lig |}.

(** Lines 24-31: [Neologdn::modify] *)
Definition neo_modify (o : sched) (n : neologdn) (input : str) : outcome str :=
  text <- conv_modify (sub o 0) (neo_conv n) input ;;
  let text := red_modify (neo_red n) text in
  let text := dot_modify text in
  let text := elim_modify (neo_elim n) text in
  let text := lig_modify (sub o 1) (neo_lig n) text in
  Ok (dot_modify text).

(** Lines 33-46: [Neologdn::modify_with_positions].  The positions of the first two stages are
    discarded; the last three stages report none. *)
Definition neo_modify_with_positions (o : sched) (n : neologdn) (input : str)
  : outcome (str * list position) :=
  r1 <- conv_modify_with_positions (sub o 0) (neo_conv n) input ;;
  r2 <- red_modify_with_positions (neo_red n) (fst r1) ;;
  let r3 : str * list position := (dot_modify (fst r2), []) in
  let r4 : str * list position := (elim_modify (neo_elim n) (fst r3), []) in
  let r5 : str * list position := (lig_modify (sub o 1) (neo_lig n) (fst r4), []) in
  Ok (fst r5, snd r5).
