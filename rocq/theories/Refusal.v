(** Model of the message of the panic at /repo/src/main.rs:23-26 ([panic!("{:?}", e)]): the derived [Debug] of
    /repo/src/error.rs:6-25.  [d] is what [{:?}] prints for a wrapped library error; paths are Unicode (the only path in an error of
    [load_rc] comes from [env::var]).  What the panic handler writes around the message is not modelled. *)
From Verif Require Import Base StrOps ModifierKind Yaml File ChanomaModel Configuration DebugText.

(** /repo/src/error.rs:6-25 *)
Definition show_error (sh : char -> bool) (sq : bool) (d : str) (e : error) : str :=
  match e with
  | CsvFileLoadError => lit "CsvFileLoadError(" ++ d ++ lit ")"
  | YamlFileLoadError => lit "YamlFileLoadError(" ++ d ++ lit ")"
  | RcFileLoadError p => lit "RcFileLoadError(" ++ show_text sh sq p ++ lit ")"
  | UnsupportedFileExtensionError x => lit "UnsupportedFileExtensionError(" ++ show_text sh false x ++ lit ")"
  | ModifierKindParseError m => lit "ModifierKindParseError(" ++ show_text sh false m ++ lit ")"
  | FileExtensionNotFoundInPath p => lit "FileExtensionNotFoundInPath(" ++ show_text sh sq p ++ lit ")"
  | FileExtensionCanNotConvertToStr p => lit "FileExtensionCanNotConvertToStr(" ++ show_text sh sq p ++ lit ")"
  | IoError => lit "IoError(" ++ d ++ lit ")"
  end.
(** /repo/src/main.rs:23-26, under the schedule [cli_main] gives to [load_rc]. *)
Definition refusal (sh : char -> bool) (sq : bool) (d : str) (o : sched) (w : world) : option str :=
  match load_rc (sub o 0) w with Err e => Some (show_error sh sq d e) | _ => None end.
