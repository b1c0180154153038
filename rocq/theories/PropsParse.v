(** Property C50: modifier descriptions. *)
From Verif Require Import Base BaseFacts StrOps Converter Eliminator ModifierKind ChanomaModel Spec PropsConverter PropsPipeline
  FileSpec ParseSpec YamlProps ParseProps.

Theorem C50_parses : forall o s m, modifier_from_str o s = Ok m ->
  exists e, describes s e /\ constructible m /\ forall t out, result [m] t out <-> e t out.
Proof.
  intros o s m H. destruct (parse_outcome o s) as [(m' & e & E & D & R)|[(er & E & _)|(E & _)]]; [|congruence..].
  exists e. assert (m' = m) by congruence. subst m'. split; [exact D|exact R].
Qed.
Print Assumptions C50_parses.
Theorem C50_parses_iff : forall o s, (exists m, modifier_from_str o s = Ok m) <-> exists e, describes s e.
Proof.
  intros o s. split.
  - intros (m & H). destruct (C50_parses o s m H) as (e & D & _). eauto.
  - intros (e & D). exact (describes_parses o s e D).
Qed.
Print Assumptions C50_parses_iff.
Theorem C50_error_iff : forall o s er, modifier_from_str o s = Err er <-> description_error s er.
Proof.
  intros o s er. split; [|apply error_parses]. intros H.
  destruct (parse_outcome o s) as [(m' & e & E & _)|[(er' & E & D)|(E & _)]]; [congruence| |congruence].
  assert (er' = er) by congruence. subst er'. exact D.
Qed.
Print Assumptions C50_error_iff.
Theorem C50_panics_iff : forall o s, modifier_from_str o s = Panic <-> description_panics s.
Proof.
  intros o s. split; [|apply panics_parses]. intros H.
  destruct (parse_outcome o s) as [(m' & e & E & _)|[(er' & E & D)|(_ & D)]]; [congruence..|exact D].
Qed.
Print Assumptions C50_panics_iff.
(** Written descriptions parse back. *)
Theorem C50_written_reducer : forall o c, modifier_from_str o (call_of (lit "consecutive_character_reducer") [c]) = Ok (MRed c).
Proof.
  intros o c. change (call_of (lit "consecutive_character_reducer") [c]) with (P_reducer ++ [c] ++ [rparen]).
  rewrite parse_reducer, argument_close. reflexivity.
Qed.
Print Assumptions C50_written_reducer.
Theorem C50_written_eliminator : forall o cs, cs <> [] -> Forall (fun c => ~ blank c /\ c <> comma) cs ->
  modifier_from_str o (call_of (lit "character_eliminator") (joined [comma] (map (fun c => [c]) cs))) = Ok (MElim (elim_from_chars cs)).
Proof. exact written_eliminator. Qed.
Print Assumptions C50_written_eliminator.
Theorem C50_written_converter : forall o kvs, kvs <> [] ->
  Forall (fun kv => ~ blank (fst kv) /\ fst kv <> comma /\ fst kv <> colon /\ ~ blank (snd kv) /\ snd kv <> comma /\ snd kv <> colon) kvs ->
  modifier_from_str o (call_of (lit "character_converter") (joined [comma] (map (fun kv => [fst kv; colon; snd kv]) kvs))) =
  Ok (MConv (hm_collect N.eqb kvs)).
Proof. exact written_converter. Qed.
Print Assumptions C50_written_converter.
(** No description removes a comma or white space. *)
Lemma firsts_chars ps cs : firsts ps cs -> forall c, In c cs -> ~ blank c /\ exists p, In p ps /\ In c p.
Proof.
  induction 1 as [|p ps cs _ _ IH|a c r ps cs _ Hc _ IH]; intros x Hx.
  - destruct Hx.
  - destruct (IH x Hx) as (H1 & p' & H2 & H3). split; [exact H1|]. exists p'. split; [right; exact H2|exact H3].
  - destruct Hx as [<-|Hx].
    + split; [exact Hc|]. eexists. split; [left; reflexivity|]. apply in_or_app. right; left; reflexivity.
    + destruct (IH x Hx) as (H1 & p' & H2 & H3). split; [exact H1|]. exists p'. split; [right; exact H2|exact H3].
Qed.
Lemma pieces_no_sep sep s ps : pieces sep s ps -> forall p, In p ps -> ~ In sep p.
Proof.
  induction 1 as [p Hp|p s ps Hp _ IH]; intros q Hq.
  - destruct Hq as [<-|[]]; exact Hp.
  - destruct Hq as [<-|Hq]; [exact Hp|exact (IH q Hq)].
Qed.
Theorem C50_eliminator_keeps_separators : forall o arg m c, c = comma \/ blank c ->
  modifier_from_str o (call_of (lit "character_eliminator") arg) = Ok m ->
  forall t out, result [m] t out -> count_occ N.eq_dec out c = count_occ N.eq_dec t c.
Proof.
  intros o arg m c Hc H t out R. change (call_of (lit "character_eliminator") arg) with (P_eliminator ++ arg ++ [rparen]) in H.
  rewrite parse_eliminator, argument_close in H. cbn [bind] in H. rewrite elim_from_str_eq in H.
  assert (Hf : firsts (split COMMA arg) (flat_map fchars (split COMMA arg))) by (apply firsts_iff; reflexivity).
  pose proof (split_pieces COMMA arg) as Hp. destruct (flat_map fchars (split COMMA arg)) as [|x l] eqn:E; [discriminate|].
  injection H as <-. apply (realises_elim_chars (x :: l)) in R.
  assert (Hn : ~ In c (x :: l)).
  { intros Hi. destruct (firsts_chars _ _ Hf c Hi) as (Hb & p & Hq & Hcp). destruct Hc as [->|Hc]; [|contradiction].
    exact (pieces_no_sep _ _ _ Hp p Hq Hcp). }
  induction R as [|y t out Hy _ IH|y t out Hy _ IH]; [reflexivity|..].
  - cbn [count_occ]. destruct (N.eq_dec y c); congruence.
  - cbn [count_occ]. destruct (N.eq_dec y c) as [->|_]; [contradiction|exact IH].
Qed.
Print Assumptions C50_eliminator_keeps_separators.
(** The modifiers without arguments, parsed by themselves, accept the empty text only. *)
Theorem C50_no_value : forall o s,
  (s = [] -> trim_from_str s = modifier_from_str o (lit "trim") /\ dot_from_str s = modifier_from_str o (lit "dotted_space_eliminator") /\
             bind (neo_from_str o s) (fun n => Ok (MNeo n)) = modifier_from_str o (lit "neologdn")) /\
  (s <> [] -> forall r, In r [trim_from_str s; dot_from_str s; bind (neo_from_str o s) (fun n => Ok (MNeo n))] ->
     r = Err (ModifierKindParseError (lit "Cannot specify a value."))).
Proof.
  intros o s. split.
  - intros ->. split; [reflexivity|]. split; [reflexivity|]. unfold neo_from_str, no_value, modifier_from_str.
    replace (str_eqb (lit "neologdn") S_neologdn) with true by reflexivity. generalize (Neologdn.neologdn_new o). intros x. destruct x; reflexivity.
  - destruct s as [|x s]; [contradiction|]. intros _ r H. cbn [neo_from_str no_value bind In] in H. destruct H as [<-|[<-|[<-|[]]]]; reflexivity.
Qed.
Print Assumptions C50_no_value.
Example C50_case :
  modifier_from_str no_order (lit "character_converter( a : b ,c:d:e, : ,f::g, a:z)") = Ok (MConv [(97, 122); (102, 103)]%N) /\
  modifier_from_str no_order (lit "character_eliminator(ab, ,c)") = Ok (MElim [97; 99]%N) /\
  modifier_from_str no_order (lit "character_eliminator(,)") = Err (ModifierKindParseError (lit "require value.")) /\
  modifier_from_str no_order (lit "ligature_translator(a, b)") = Ok (MLig [(lit "a", lit " b")]) /\
  modifier_from_str no_order (lit "ligature_translator(a)") = Err (ModifierKindParseError (lit "Only two values.")) /\
  modifier_from_str no_order (lit "consecutive_character_reducer())") = Ok (MRed 41%N) /\
  modifier_from_str no_order (lit "consecutive_character_reducer()") = Panic /\
  modifier_from_str no_order (lit "ligature_translator(a,b") = Panic /\
  modifier_from_str no_order (lit " trim") = Err (ModifierKindParseError (lit "parse error.")).
Proof. repeat split. Qed.
