(** Model of the [std::path] functions used by the crate (Unix), and of
    /repo/src/file_extension.rs.  A path is a list of units: code points for its Unicode part, units
    >= 0x110000 for (maximal sequences of) bytes that are not valid Unicode. *)
From Verif Require Import Base StrOps.

Definition dot_name : str := [DOT].
Definition dotdot_name : str := [DOT; DOT].

(** Units after the last ['/'] and the part up to and including it. *)
Fixpoint last_piece (p : path) : path * path :=
  match p with
  | [] => ([], [])
  | c :: r =>
      let '(pre, name) := last_piece r in
      if existsb (N.eqb SLASH) r then (c :: pre, name)
      else if N.eqb c SLASH then ([c], r) else ([], c :: r)
  end.

(** [Path::file_name] with its prefix: last component, trailing ['/'] and ["."] components being
    ignored; [None] for no component or [".."].  Fuel: the length of the path. *)
Fixpoint file_name_fuel (n : nat) (p : path) : option (path * path) :=
  match n with
  | O => None
  | S n' =>
      let '(pre, name) := last_piece p in
      match name with
      | [] => match pre with [] => None | _ => file_name_fuel n' (removelast pre) end
      | _ => if str_eqb name dot_name then
               match pre with [] => None | _ => file_name_fuel n' (removelast pre) end
             else if str_eqb name dotdot_name then None
             else Some (pre, name)
      end
  end.
Definition file_name_split (p : path) : option (path * path) := file_name_fuel (S (length p)) p.
Definition file_name (p : path) : option path := option_map snd (file_name_split p).

(** [rsplit_file_at_dot] of a file name: (stem part before the last dot, part after it). *)
Fixpoint rsplit_dot (f : path) : option (path * path) :=
  match f with
  | [] => None
  | c :: r =>
      match rsplit_dot r with
      | Some (b, a) => Some (c :: b, a)
      | None => if N.eqb c DOT then Some ([], r) else None
      end
  end.
(** [Path::extension] on a file name *)
Definition name_extension (f : path) : option path :=
  match rsplit_dot f with
  | Some ([], _) => None
  | Some (_, a) => Some a
  | None => None
  end.
(** [Path::file_stem] on a file name *)
Definition name_stem (f : path) : path :=
  match rsplit_dot f with
  | Some ([], _) => f
  | Some (b, _) => b
  | None => f
  end.
(** [Path::extension] *)
Definition extension (p : path) : option path :=
  match file_name p with Some f => name_extension f | None => None end.

(** [OsStr::to_str] *)
Definition to_str (p : path) : option str :=
  if forallb (fun c => N.ltb c 0x110000) p then Some p else None.

(** [PathBuf::push] *)
Definition push (p q : path) : path :=
  match q with
  | c :: _ => if N.eqb c SLASH then q
              else match p with
                   | [] => q
                   | _ => if N.eqb (last p 0%N) SLASH then p ++ q else p ++ [SLASH] ++ q
                   end
  | [] => match p with
          | [] => []
          | _ => if N.eqb (last p 0%N) SLASH then p else p ++ [SLASH]
          end
  end.

(** [PathBuf::set_extension] with a non-empty extension: cut after the file stem, add ["." ext]. *)
Definition set_extension (p ext : path) : path :=
  match file_name_split p with
  | None => p
  | Some (pre, f) => pre ++ name_stem f ++ [DOT] ++ ext
  end.

(** ** /repo/src/file_extension.rs *)

(** Lines 9-14 *)
Inductive file_extension := Csv | Yaml.
(** [FileExtension::iter()] (strum, line 9): declaration order. *)
Definition all_extensions : list file_extension := [Csv; Yaml].

(** Lines 18-25 *)
Definition ext_from_str (ext : str) : outcome file_extension :=
  if str_eqb ext (lit ".csv") || str_eqb ext (lit "csv") then Ok Csv
  else if str_eqb ext (lit ".yaml") || str_eqb ext (lit "yaml")
          || str_eqb ext (lit ".yml") || str_eqb ext (lit "yml") then Ok Yaml
  else Err (UnsupportedFileExtensionError ext).
(** Lines 29-35 *)
Definition ext_to_string (e : file_extension) : str :=
  match e with Csv => lit "csv" | Yaml => lit "yaml" end.
(** Lines 47-58 *)
Definition ext_from_path (p : path) : outcome file_extension :=
  ext <- match extension p with Some e => Ok e | None => Err (FileExtensionNotFoundInPath p) end ;;
  ext_str <- match to_str ext with Some s => Ok s | None => Err (FileExtensionCanNotConvertToStr p) end ;;
  ext_from_str ext_str.
