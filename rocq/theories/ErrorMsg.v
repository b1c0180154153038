(** Model of the [Display] texts of /repo/src/error.rs (thiserror) and of their use by
    /repo/bindings/python3/src/lib.rs:31-35, 139-145 ([PyOSError::new_err(e.to_string())]). *)
From Verif Require Import Base Corr Table ModifierKind PathModel File ChanomaModel Configuration Python.

(** The message prefixes of /repo/src/error.rs:8-20. *)
(** Line 8: csv ファイルの読み込みに失敗しました: *)
Definition text_CsvFileLoadError : str :=
  [0x63; 0x73; 0x76; 0x20; 0x30D5; 0x30A1; 0x30A4; 0x30EB; 0x306E; 0x8AAD; 0x307F; 0x8FBC; 0x307F; 0x306B; 0x5931; 0x6557; 0x3057; 0x307E; 0x3057; 0x305F; 0x3A; 0x20]%N.
(** Line 10: yaml ファイルの読み込みに失敗しました: *)
Definition text_YamlFileLoadError : str :=
  [0x79; 0x61; 0x6D; 0x6C; 0x20; 0x30D5; 0x30A1; 0x30A4; 0x30EB; 0x306E; 0x8AAD; 0x307F; 0x8FBC; 0x307F; 0x306B; 0x5931; 0x6557; 0x3057; 0x307E; 0x3057; 0x305F; 0x3A; 0x20]%N.
(** Line 12: 指定された設定ファイルが存在しません: *)
Definition text_RcFileLoadError : str :=
  [0x6307; 0x5B9A; 0x3055; 0x308C; 0x305F; 0x8A2D; 0x5B9A; 0x30D5; 0x30A1; 0x30A4; 0x30EB; 0x304C; 0x5B58; 0x5728; 0x3057; 0x307E; 0x305B; 0x3093; 0x3A; 0x20]%N.
(** Line 14: 未対応のファイル拡張子が指定されています: *)
Definition text_UnsupportedFileExtensionError : str :=
  [0x672A; 0x5BFE; 0x5FDC; 0x306E; 0x30D5; 0x30A1; 0x30A4; 0x30EB; 0x62E1; 0x5F35; 0x5B50; 0x304C; 0x6307; 0x5B9A; 0x3055; 0x308C; 0x3066; 0x3044; 0x307E; 0x3059; 0x3A; 0x20]%N.
(** Line 16: 存在しない Modifier が指定されています: *)
Definition text_ModifierKindParseError : str :=
  [0x5B58; 0x5728; 0x3057; 0x306A; 0x3044; 0x20; 0x4D; 0x6F; 0x64; 0x69; 0x66; 0x69; 0x65; 0x72; 0x20; 0x304C; 0x6307; 0x5B9A; 0x3055; 0x308C; 0x3066; 0x3044; 0x307E; 0x3059; 0x3A; 0x20]%N.
(** Line 18: 指定したパスに拡張子が含まれていません: *)
Definition text_FileExtensionNotFoundInPath : str :=
  [0x6307; 0x5B9A; 0x3057; 0x305F; 0x30D1; 0x30B9; 0x306B; 0x62E1; 0x5F35; 0x5B50; 0x304C; 0x542B; 0x307E; 0x308C; 0x3066; 0x3044; 0x307E; 0x305B; 0x3093; 0x3A; 0x20]%N.
(** Line 20: 拡張子の文字列を str に変換できません: *)
Definition text_FileExtensionCanNotConvertToStr : str :=
  [0x62E1; 0x5F35; 0x5B50; 0x306E; 0x6587; 0x5B57; 0x5217; 0x3092; 0x20; 0x73; 0x74; 0x72; 0x20; 0x306B; 0x5909; 0x63DB; 0x3067; 0x304D; 0x307E; 0x305B; 0x3093; 0x3A; 0x20]%N.

(** [Path::display]: what is not Unicode is shown as U+FFFD. *)
Definition path_display (p : path) : str := map (fun c => if (c <? 0x110000)%N then c else 0xFFFD%N) p.
(** [to_string()] of an error; [d] is the text of the wrapped library error, if there is one
    (/repo/src/error.rs:7-24). *)
Definition error_text (d : str) (e : error) : str :=
  match e with
  | CsvFileLoadError => text_CsvFileLoadError ++ d
  | YamlFileLoadError => text_YamlFileLoadError ++ d
  | RcFileLoadError p => text_RcFileLoadError ++ path_display p
  | UnsupportedFileExtensionError x => text_UnsupportedFileExtensionError ++ x
  | ModifierKindParseError m => text_ModifierKindParseError ++ m
  | FileExtensionNotFoundInPath p => text_FileExtensionNotFoundInPath ++ path_display p
  | FileExtensionCanNotConvertToStr p => text_FileExtensionCanNotConvertToStr ++ path_display p
  | IoError => d
  end.
(** Argument of the [PyOSError] raised by a Python constructor, if one is raised. *)
Definition raised {A} (d : str) (x : outcome A) : option str :=
  match x with Err e => Some (error_text d e) | _ => None end.
