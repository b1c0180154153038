(** Specification vocabulary for C100: the errors as values of the grammar in DebugSpec. *)
From Verif Require Import Base DebugSpec.

Inductive error_value (sq : bool) (d : str) : error -> dval -> Prop :=
| ev_csv : error_value sq d CsvFileLoadError (DTuple (lit "CsvFileLoadError") (DWord d))
| ev_yaml : error_value sq d YamlFileLoadError (DTuple (lit "YamlFileLoadError") (DWord d))
| ev_io : error_value sq d IoError (DTuple (lit "IoError") (DWord d))
| ev_rc p : error_value sq d (RcFileLoadError p) (DTuple (lit "RcFileLoadError") (DText sq p))
| ev_ext x : error_value sq d (UnsupportedFileExtensionError x) (DTuple (lit "UnsupportedFileExtensionError") (DText false x))
| ev_mod m : error_value sq d (ModifierKindParseError m) (DTuple (lit "ModifierKindParseError") (DText false m))
| ev_none p : error_value sq d (FileExtensionNotFoundInPath p) (DTuple (lit "FileExtensionNotFoundInPath") (DText sq p))
| ev_bad p : error_value sq d (FileExtensionCanNotConvertToStr p) (DTuple (lit "FileExtensionCanNotConvertToStr") (DText sq p)).
(** [t] is what [{:?}] prints for [e]. *)
Definition error_printed (sh : char -> bool) (sq : bool) (d : str) (e : error) (t : str) : Prop := exists v, error_value sq d e v /\ prints sh v t.
