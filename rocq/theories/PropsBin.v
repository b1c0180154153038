(** Properties C51 and C52: the command line tool and the Python module. *)
From Coq Require Import String.
From Verif Require Import Base BaseFacts StrOps Corr Table Charset Converter Neologdn ModifierKind PathModel Yaml File ChanomaModel
  Configuration Cli Python Spec TableFacts CharsetFacts PropsConverter PropsPipeline CorrFacts
  FileSpec PathSpec ConfigSpec BinSpec YamlProps ConfigProps PropsFile PropsConfig BinProps.
Local Open Scope string_scope.
Local Open Scope list_scope.

(** ** C51 *)
(** [env::var] only returns Unicode text. *)
Theorem C51_printed_iff : forall w op stdin out, (forall s, w_env w = EnvUnicode s -> unicode s) ->
  ((exists o, cli_main o w op stdin = Ok (Printed out)) <->
   exists cfg text a b, (forall o, load_rc o w = Ok cfg) /\ input_text op stdin text /\
     result cfg text a /\ if_asked (o_preset op) (pointwise preset_rel) a b /\ if_asked (o_neologdn op) neologdn_result b out /\
     (o_debug op = true -> cfg <> [] \/ o_preset op = true \/ o_neologdn op = true)).
Proof.
  intros w op stdin out U. split.
  - intros (o & H). destruct (load_rc o w) as [cfg| |] eqn:E; [|rewrite (cli_fail o w op stdin) in H; [discriminate|congruence]..].
    destruct (input_text_cases op stdin) as [(text & T)|(E1 & E2 & _)].
    + destruct (cli_normal o w op stdin cfg text U E T) as (out' & R & M). rewrite M in H.
      assert (Hd : o_debug op = true -> cli_modifiers op cfg <> []).
      { intros D C. rewrite D, C in H. discriminate. }
      assert (out' = out).
      { destruct (o_debug op); [|congruence]. destruct (cli_modifiers op cfg); congruence. }
      subst out'. assert (R' : result (cli_modifiers op cfg) text out) by (exists (sub o 3); exact R).
      apply cli_modifiers_result in R' as (a & b & R1 & R2 & R3). exists cfg, text, a, b.
      split; [intros o'; rewrite (load_rc_order o' o); exact E|]. split; [exact T|]. split; [exact R1|]. split; [exact R2|]. split; [exact R3|].
      intros D. specialize (Hd D). rewrite cli_modifiers_nil in Hd. destruct cfg; [|left; discriminate].
      destruct (o_preset op); [auto|]. destruct (o_neologdn op); [auto|]. destruct Hd; auto.
    + rewrite (cli_eq o w op stdin cfg E), E1, E2 in H. discriminate.
  - intros (cfg & text & a & b & L & T & R1 & R2 & R3 & D).
    assert (R : result (cli_modifiers op cfg) text out) by (apply cli_modifiers_result; exists a, b; auto).
    destruct R as (o1 & R). set (o := fun p => match p with 3 :: q => o1 q | _ => [] end). exists o.
    destruct (cli_normal o w op stdin cfg text U (L o) T) as (out' & R' & M). change (sub o 3) with o1 in R'. rewrite M.
    assert (out' = out) by congruence. subst out'. destruct (o_debug op); [|reflexivity].
    destruct (cli_modifiers op cfg) eqn:C; [|reflexivity]. apply cli_modifiers_nil in C as (-> & C1 & C2). rewrite C1, C2 in D.
    destruct (D eq_refl) as [N|[N|N]]; [contradiction|discriminate..].
Qed.
Print Assumptions C51_printed_iff.
Theorem C51_panics_iff : forall o w op stdin, (forall s, w_env w = EnvUnicode s -> unicode s) ->
  (cli_main o w op stdin = Panic <->
   (forall cfg, load_rc o w <> Ok cfg) \/
   (load_rc o w = Ok [] /\ o_debug op = true /\ o_preset op = false /\ o_neologdn op = false /\ (o_input op <> None \/ stdin <> None))).
Proof.
  intros o w op stdin U. split.
  - intros H. destruct (load_rc o w) as [cfg| |] eqn:E; [|left; congruence..].
    destruct (input_text_cases op stdin) as [(text & T)|(E1 & E2 & _)].
    + right. destruct (cli_normal o w op stdin cfg text U E T) as (out & _ & M). rewrite M in H. destruct (o_debug op); [|discriminate].
      destruct (cli_modifiers op cfg) eqn:C; [|discriminate]. apply cli_modifiers_nil in C as (-> & C1 & C2).
      split; [reflexivity|]. split; [reflexivity|]. split; [exact C1|]. split; [exact C2|].
      apply input_text_eq in T. destruct (o_input op); [left; discriminate|]. destruct stdin; [right; discriminate|contradiction].
    + rewrite (cli_eq o w op stdin cfg E), E1, E2 in H. discriminate.
  - intros [H|(E & D & C1 & C2 & T)]; [exact (cli_fail o w op stdin H)|].
    destruct (input_text_cases op stdin) as [(text & T')|(E1 & E2 & _)]; [|destruct T; contradiction].
    destruct (cli_normal o w op stdin [] text U E T') as (out & _ & M). rewrite M, D.
    assert (C : cli_modifiers op [] = []) by (apply cli_modifiers_nil; auto). rewrite C. reflexivity.
Qed.
Print Assumptions C51_panics_iff.
Theorem C51_stdin_error_iff : forall o w op stdin, (forall s, w_env w = EnvUnicode s -> unicode s) ->
  (cli_main o w op stdin = Ok StdinError <-> (exists cfg, load_rc o w = Ok cfg) /\ o_input op = None /\ stdin = None).
Proof.
  intros o w op stdin U. split.
  - intros H. destruct (load_rc o w) as [cfg| |] eqn:E; [|rewrite (cli_fail o w op stdin) in H; [discriminate|congruence]..].
    split; [eauto|]. destruct (input_text_cases op stdin) as [(text & T)|(E1 & E2 & _)]; [|auto].
    destruct (cli_normal o w op stdin cfg text U E T) as (out & _ & M). rewrite M in H.
    destruct (o_debug op); [destruct (cli_modifiers op cfg); discriminate|discriminate].
  - intros ((cfg & E) & E1 & E2). rewrite (cli_eq o w op stdin cfg E), E1, E2. reflexivity.
Qed.
Print Assumptions C51_stdin_error_iff.
(** The panic is the only failure: there is no exit with an error value. *)
Theorem C51_never_error : forall o w op stdin e, (forall s, w_env w = EnvUnicode s -> unicode s) -> cli_main o w op stdin <> Err e.
Proof.
  intros o w op stdin e U H. destruct (load_rc o w) as [cfg| |] eqn:E; [|rewrite (cli_fail o w op stdin) in H; [discriminate|congruence]..].
  destruct (input_text_cases op stdin) as [(text & T)|(E1 & E2 & _)].
  - destruct (cli_normal o w op stdin cfg text U E T) as (out & _ & M). rewrite M in H.
    destruct (o_debug op); [destruct (cli_modifiers op cfg); discriminate|discriminate].
  - rewrite (cli_eq o w op stdin cfg E), E1, E2 in H. discriminate.
Qed.
Print Assumptions C51_never_error.
(** A carriage return before the line feed belongs to the text: expectation refuted. *)
Theorem C51_crlf_refuted : exists o w op s, cli_main o w op (Some (lit "ab" ++ [0x0D; 0x0A]%N ++ lit "cd")) = Ok (Printed s) /\ s <> lit "ab".
Proof.
  exists no_order, (search_world [] "/h" "/d"), (Opts None false false false). eexists. split; [reflexivity|discriminate].
Qed.
Print Assumptions C51_crlf_refuted.
Example C51_case :
  cli_main no_order (search_world ["/h/chanomarc.csv"] "/h" "/d") (Opts (Some (lit "a" ++ [0xFF22; 0x20; 0x7E]%N)) true true true) None = Ok (Printed (lit "bB")) /\
  cli_main no_order (search_world [] "/h" "/d") (Opts None false true false) (Some ([0xFF22]%N ++ [0x0A]%N ++ lit "x")) = Ok (Printed (lit "B")) /\
  cli_main no_order (search_world [] "/h" "/d") (Opts None true false false) (Some (lit "x")) = Panic /\
  cli_main no_order (search_world [] "/h" "/d") (Opts None true false false) None = Ok StdinError.
Proof. split; [vm_compute; reflexivity|]. split; [vm_compute; reflexivity|]. split; reflexivity. Qed.

(** ** C52 *)
Theorem C52_constructor_effect : forall o w t neo pre rc file c, py_chanoma_new o w t neo pre rc file = Ok c ->
  exists cfg : chanoma, match file with Some p => from_config_file o w p | None => if rc then load_rc o w else Ok [] end = Ok cfg /\
  forall s out, (exists o', py_normalize o' c s = Ok out) <->
    exists a b d, result cfg s a /\
      match t with Some tb => pointwise (last_match (table_items tb)) a b | None => b = a end /\
      if_asked pre (pointwise preset_rel) b d /\ if_asked neo neologdn_result d out.
Proof.
  intros o w t neo pre rc file c H. rewrite py_eq in H. apply bind_ok in H as (cfg & H1 & H). apply bind_ok in H as (c1 & H2 & H).
  injection H as <-. destruct (add_opt_ok t cfg c1 H2) as (ms & -> & _ & R). exists cfg. split; [exact H1|].
  intros s out. assert (Q : forall c, (exists o', py_normalize o' c s = Ok out) <-> result c s out) by reflexivity.
  rewrite Q, <- app_assoc, result_app. split.
  - intros (a & Ha & Hb). apply result_app in Hb as (b & Hb & Hd). apply result_app in Hd as (d & Hd & Hn). exists a, b, d.
    split; [exact Ha|]. split; [apply R in Hb; destruct t; exact Hb|]. split; [apply (result_asked _ _ _ realises_preset), Hd|apply (result_asked _ _ _ realises_neo), Hn].
  - intros (a & b & d & Ha & Hb & Hd & Hn). exists a. split; [exact Ha|]. apply result_app. exists b. split; [apply R; destruct t; exact Hb|].
    apply result_app. exists d. split; [apply (result_asked _ _ _ realises_preset), Hd|apply (result_asked _ _ _ realises_neo), Hn].
Qed.
Print Assumptions C52_constructor_effect.
Theorem C52_constructor_outcomes : forall (o : sched) (w : world) (t : option table) (neo pre rc : bool) (file : option path),
  let cfg := match file with Some p => from_config_file o w p | None => if rc then load_rc o w else Ok [] end in
  (forall e, py_chanoma_new o w t neo pre rc file = Err e <-> cfg = Err e) /\
  (py_chanoma_new o w t neo pre rc file = Panic <->
     cfg = Panic \/ ((exists c, cfg = Ok c) /\ exists tb it, t = Some tb /\ In it (table_items tb) /\ (from it = [] \/ to it = []))).
Proof.
  intros o w t neo pre rc file cfg. rewrite py_eq. change (py_config o w rc file) with cfg. destruct cfg as [c|e|]; cbn [bind].
  - destruct (add_opt_cases t c) as [(c' & E & N)|(E & tb & -> & N)]; rewrite E; cbn [bind].
    + split; [intros e; split; discriminate|]. split; [discriminate|]. intros [H|(_ & tb & it & Et & Hi & He)]; [discriminate|].
      specialize (N tb Et). unfold no_empty_string in N. rewrite Forall_forall in N. destruct (N it Hi). destruct He; contradiction.
    + split; [intros e; split; discriminate|]. split; [intros _|reflexivity]. right. split; [eauto|]. exists tb.
      destruct (forallb nonempty_item (table_items tb)) eqn:F.
      * apply no_empty_iff in F. contradiction.
      * assert (X : exists it, In it (table_items tb) /\ nonempty_item it = false).
        { clear -F. induction (table_items tb) as [|it l IH]; [discriminate|]. cbn [forallb] in F. apply andb_false_iff in F as [F|F].
          - exists it. split; [left; reflexivity|exact F].
          - destruct (IH F) as (x & H1 & H2). exists x. split; [right; exact H1|exact H2]. }
        destruct X as (it & Hi & He). exists it. split; [reflexivity|]. split; [exact Hi|].
        destruct (from it) eqn:E1; [left; reflexivity|]. destruct (to it) eqn:E2; [right; reflexivity|].
        assert (nonempty_item it = true) by (apply nonempty_item_true; split; congruence). congruence.
  - split; [intros e'; split; intros H; injection H as ->; reflexivity|]. split; [discriminate|]. intros [H|((c & H) & _)]; discriminate.
  - split; [intros e'; split; discriminate|]. split; auto.
Qed.
Print Assumptions C52_constructor_outcomes.
Theorem C52_table_union : forall o w pre csv yaml t, py_table_new o w pre csv yaml = Ok t ->
  exists tc ty, (forall p, csv = Some p -> table_from_csv_path w p = Ok tc) /\ (forall p, yaml = Some p -> table_from_yaml_path w p = Ok ty) /\
    ordered item_lt (table_items t) /\
    forall it, In it (table_items t) <->
      (pre = true /\ preset_item it) \/ (csv <> None /\ In it (table_items tc)) \/ (yaml <> None /\ In it (table_items ty)).
Proof. exact py_table_ok. Qed.
Print Assumptions C52_table_union.
Theorem C52_table_outcomes : forall o w pre csv yaml,
  (forall p, csv = Some p -> (forall e, table_from_csv_path w p = Err e -> py_table_new o w pre csv yaml = Err e) /\
     (table_from_csv_path w p = Panic -> py_table_new o w pre csv yaml = Panic)) /\
  ((forall p, csv = Some p -> exists tc, table_from_csv_path w p = Ok tc) ->
     (forall p, yaml = Some p -> (forall e, table_from_yaml_path w p = Err e -> py_table_new o w pre csv yaml = Err e) /\
       (table_from_yaml_path w p = Panic -> py_table_new o w pre csv yaml = Panic)) /\
     ((forall p, yaml = Some p -> exists ty, table_from_yaml_path w p = Ok ty) -> exists t, py_table_new o w pre csv yaml = Ok t)).
Proof. exact py_table_fail. Qed.
Print Assumptions C52_table_outcomes.
Theorem C52_table_add : forall o items t, ordered item_lt (table_items (py_table_add o items t)) /\
  forall it, In it (table_items (py_table_add o items t)) <-> In it (table_items t) \/ In it items.
Proof. intros o items t. split; [apply table_add_strict|]. intros it. apply table_add_In. Qed.
Print Assumptions C52_table_add.
Definition both_world : world :=
  World (fun _ => true) (fun _ => Some [fields ["h"]; fields ["a"; "b"]]) (fun _ => Some (Some ex_config)) (fun p => Some p) EnvAbsent None None.
Example C52_case :
  (exists t, py_table_new no_order both_world false (Some ex_path) (Some ex_path) = Ok t /\
     table_items t = [Item (lit "a") (lit "b"); Item (lit "c") (lit "b")]) /\
  (exists c, py_chanoma_new no_order both_world (Some (Table [Item (lit "x") (lit "a")] OriginNew)) true true false (Some (lit "f.yaml")) = Ok c /\
     py_normalize no_order c (lit " aaxc" ++ [0xFF21; 0x7E]%N) = Ok (lit "babA")) /\
  py_chanoma_new no_order both_world (Some (Table [Item [] (lit "a")] OriginNew)) true true false None = Panic /\
  py_chanoma_new no_order both_world (Some (Table [Item [] (lit "a")] OriginNew)) true true false (Some (lit "f")) = Err (FileExtensionNotFoundInPath (lit "f")).
Proof.
  split; [eexists; split; vm_compute; reflexivity|]. split; [|split; vm_compute; reflexivity].
  eexists. split; [vm_compute; reflexivity|]. vm_compute. reflexivity.
Qed.
