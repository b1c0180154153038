(** Property C78: programs using the Python module. *)
From Coq Require Import String.
From Verif Require Import Base BaseFacts StrOps Corr Table ModifierKind PathModel Yaml File ChanomaModel Configuration Python PyProgram
  Spec CharsetFacts PropsConverter PropsPipeline FileSpec PathSpec ConfigSpec BinSpec PySpec PropsFile PropsConfig BinProps PyProps.
Local Open Scope string_scope.
Local Open Scope list_scope.

(** Every run of a program gives answers the description allows, ... *)
Theorem C78_run_allowed : forall o prog, sane prog -> allowed_run (View [] []) prog (py_run o prog py_start).
Proof. intros o prog G. apply run_sound; [exact G|apply sim_start]. Qed.
Print Assumptions C78_run_allowed.
(** ... and all allowed answers occur. *)
Theorem C78_all_possible : forall prog answers, sane prog -> allowed_run (View [] []) prog answers ->
  exists o, Forall2 same_answer answers (py_run o prog py_start).
Proof. intros prog answers G H. eapply run_complete; [exact G|apply sim_start|exact H]. Qed.
Print Assumptions C78_all_possible.
(** What a configuration says is determined. *)
Theorem C78_effect_unique : forall w rc file e e', config_effect w rc file e -> config_effect w rc file e' -> e = e'.
Proof. exact config_effect_unique. Qed.
Print Assumptions C78_effect_unique.
(** No later call changes what an existing [Chanoma] does. *)
Theorem C78_later_irrelevant : forall prog more w w' i s out,
  let before := prog ++ [(w, PyNormalize i s)] in
  let after := prog ++ more ++ [(w', PyNormalize i s)] in
  ((exists o, last (py_run o before py_start) PyNone = PyText out) -> exists o, last (py_run o after py_start) PyNone = PyText out) /\
  ((exists o t, last (py_run o before py_start) PyNone = PyText t) ->
   (exists o, last (py_run o after py_start) PyNone = PyText out) -> exists o, last (py_run o before py_start) PyNone = PyText out).
Proof.
  intros prog more w w' i s out before after. unfold before, after. rewrite app_assoc.
  destruct (final_keeps more (final prog py_start)) as (m & Em). split.
  - intros H. apply last_text, text_iff in H as (c & E & R). apply last_text, text_iff. exists c. split; [|exact R].
    rewrite final_app, Em. rewrite nth_error_app1; [exact E|]. apply nth_error_Some. congruence.
  - intros (o0 & t & H0) H.
    assert (H1 : exists o, last (py_run o (prog ++ [(w, PyNormalize i s)]) py_start) PyNone = PyText t) by eauto.
    apply last_text, text_iff in H1 as (c & E & _). apply last_text, text_iff in H as (c' & E' & R). apply last_text, text_iff.
    exists c. split; [exact E|]. rewrite final_app, Em, nth_error_app1 in E' by (apply nth_error_Some; congruence). congruence.
Qed.
Print Assumptions C78_later_irrelevant.

Definition a_is (t : string) : world :=
  World (fun _ => true) (fun _ => Some [fields ["h"]; fields ["a"; t]]) (fun _ => Some (Some ex_config)) (fun p => Some p) EnvAbsent None None.
Definition demo : list (world * py_call) :=
  [ (a_is "b", PyNewTable false (Some ex_path) None); (* t0: a -> b *)
    (a_is "b", PyNewChanoma (Some 0) false false false None); (* c0 *)
    (a_is "z", PyNewTable false (Some ex_path) None); (* t1: the file has changed *)
    (a_is "z", PyNormalize 0 (lit "ax")); (* c0 has not *)
    (a_is "z", PyAdd 0 (Some [Item (lit "x") (lit "y"); Item (lit "a") (lit "A")]));
    (a_is "z", PyNormalize 0 (lit "ax")); (* c0 has its own copy of the table *)
    (a_is "z", PyNewChanoma (Some 0) false false false (Some (lit "noextension"))); (* no object *)
    (a_is "z", PyNormalize 1 (lit "ax"));
    (a_is "z", PyNewChanoma (Some 0) true false false None); (* c1 *)
    (a_is "z", PyNormalize 1 (lit "a x"));
    (a_is "z", PyAdd 1 (Some [Item [] []]));
    (a_is "z", PyNewChanoma (Some 1) true false false None);
    (a_is "z", PyAdd 1 None); (a_is "z", PyAdd 7 (Some [])) ].
Example C78_case : sane demo /\ py_run no_order demo py_start =
  [PyObject; PyObject; PyObject; PyText (lit "bx"); PyNone; PyText (lit "bx");
   PyOSError (FileExtensionNotFoundInPath (lit "noextension")); PyOther; PyObject; PyText (lit "b y"); PyNone; PyPanic; PyOther; PyOther].
Proof. split; [repeat constructor; discriminate|]. vm_compute. reflexivity. Qed.
(** The two configurations that exist, and a table of a file. *)
Example C78_case_config : (exists e, config_effect (a_is "b") false (Some (lit "f.yaml")) e) /\
  (exists P, table_made (a_is "b") true (Some ex_path) (Some ex_path) P) /\
  (forall P, ~ table_made (World (fun _ => true) (fun _ => None) (fun _ => None) (fun p => Some p) EnvAbsent None None) true None (Some ex_path) P).
Proof.
  split; [|split].
  - destruct (C44_loads no_order (a_is "b") (lit "f.yaml") [MTrim; MRed 97%N; MConv [(97, 98); (99, 98)]%N]) as (_ & e & H & _); [vm_compute; reflexivity|].
    exists e. exact H.
  - destruct (tbl_ok no_order (a_is "b") true (Some ex_path) (Some ex_path) (match py_table_new no_order (a_is "b") true (Some ex_path) (Some ex_path) with Ok t => t | _ => table_new end)) as (P & H & _);
      [vm_compute; reflexivity|]. exists P. exact H.
  - intros P (C & Y & _ & (data & items & H & _) & _). discriminate H.
Qed.
