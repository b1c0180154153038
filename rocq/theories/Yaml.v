(** Model of the YAML value type (serde_yaml 0.8 [Value]) and of the [from_yaml_value] functions. *)
From Verif Require Import Base StrOps Converter Eliminator Reducer Ligature Neologdn ModifierKind.

(** [serde_yaml::Value]; numbers and booleans carry no content because the crate never reads it. *)
Inductive yval :=
| YNull | YBool | YNum
| YStr (s : str)
| YSeq (l : list yval)
| YMap (l : list (yval * yval)).

Definition as_str (v : yval) : option str := match v with YStr s => Some s | _ => None end.
Definition as_sequence (v : yval) : option (list yval) := match v with YSeq l => Some l | _ => None end.
Definition is_sequence (v : yval) : bool := match v with YSeq _ => true | _ => false end.
Definition as_mapping (v : yval) : option (list (yval * yval)) := match v with YMap l => Some l | _ => None end.
Definition is_null (v : yval) : bool := match v with YNull => true | _ => false end.

Fixpoint lookup_str (k : str) (l : list (yval * yval)) : option yval :=
  match l with
  | [] => None
  | (YStr s, v) :: r => if str_eqb k s then Some v else lookup_str k r
  | _ :: r => lookup_str k r
  end.
(** [Value::get(&str)]: only mappings have string keys. *)
Definition yget (k : str) (v : yval) : option yval :=
  match v with YMap l => lookup_str k l | _ => None end.

(** [v.as_str().unwrap().chars().next().unwrap()] *)
Definition str_first (v : yval) : outcome char := s <- unwrap (as_str v) ;; unwrap (first_char s).

(** /repo/src/modifier/character_converter.rs:103-115 *)
Definition conv_from_yaml (v : yval) : outcome converter :=
  l <- unwrap (as_mapping v) ;;
  kvs <- traverse (fun kv => k <- str_first (fst kv) ;; x <- str_first (snd kv) ;; Ok (k, x)) l ;;
  Ok (hm_collect N.eqb kvs).
(** /repo/src/modifier/character_eliminator.rs:39-47 *)
Definition elim_from_yaml (v : yval) : outcome eliminator :=
  l <- unwrap (as_sequence v) ;;
  cs <- traverse str_first l ;;
  Ok (elim_from_chars cs).
(** /repo/src/modifier/consecutive_character_reducer.rs:84-86 *)
Definition red_from_yaml (v : yval) : outcome char := s <- unwrap (as_str v) ;; red_from_str s.
(** /repo/src/modifier/ligature_translator.rs:35-47 *)
Definition lig_from_yaml (v : yval) : outcome ligature :=
  l <- unwrap (as_mapping v) ;;
  kvs <- traverse (fun kv => k <- unwrap (as_str (fst kv)) ;; x <- unwrap (as_str (snd kv)) ;; Ok (k, x)) l ;;
  Ok (hm_collect str_eqb kvs).
(** /repo/src/modifier/trim.rs:54-62, dotted_space_eliminator.rs:50-58, neologdn.rs:50-58: the value
    must be null. *)
Definition null_only {A} (x : outcome A) (v : yval) : outcome A :=
  if is_null v then x else Err (ModifierKindParseError (lit "Cannot specify a value.")).

(** /repo/src/modifier_kind.rs:115-143: [from_yaml_key_value] *)
Definition modifier_from_yaml (o : sched) (key value : yval) : outcome modifier :=
  k <- unwrap (as_str key) ;;
  if str_eqb k (lit "character_converter") then x <- conv_from_yaml value ;; Ok (MConv x)
  else if str_eqb k (lit "character_eliminator") then x <- elim_from_yaml value ;; Ok (MElim x)
  else if str_eqb k (lit "consecutive_character_reducer") then x <- red_from_yaml value ;; Ok (MRed x)
  else if str_eqb k (lit "ligature_translator") then x <- lig_from_yaml value ;; Ok (MLig x)
  else if str_eqb k (lit "dotted_space_eliminator") then null_only (Ok MDot) value
  else if str_eqb k (lit "trim") then null_only (Ok MTrim) value
  else if str_eqb k (lit "neologdn") then x <- null_only (neologdn_new o) value ;; Ok (MNeo x)
  else Err (ModifierKindParseError (lit "specified key " ++ k ++ lit " does not exists.")).
