(** Model of the [str] methods the crate calls.  Standard-library behaviour, at character level;
    Utf8Props (C53) relates the search-and-replace and the ordering to UTF-8 bytes. *)
From Verif Require Import Base.

(** [str::starts_with(&str)] *)
Fixpoint starts_with (p s : str) : bool :=
  match p, s with
  | [], _ => true
  | x :: p', y :: s' => N.eqb x y && starts_with p' s'
  | _ :: _, [] => false
  end.

(** [str::strip_prefix(&str)] *)
Definition strip_prefix (p s : str) : option str :=
  if starts_with p s then Some (skipn (length p) s) else None.

(** [str::strip_suffix(char)] *)
Definition strip_suffix_char (c : char) (s : str) : option str :=
  match rev s with
  | x :: r => if N.eqb x c then Some (rev r) else None
  | [] => None
  end.

(** [str::trim_start_matches(char)] *)
Fixpoint trim_start_matches (c : char) (s : str) : str :=
  match s with
  | x :: r => if N.eqb x c then trim_start_matches c r else s
  | [] => []
  end.
(** [str::trim_end_matches(char)] *)
Definition trim_end_matches (c : char) (s : str) : str := rev (trim_start_matches c (rev s)).
(** [str::trim_matches(char)] *)
Definition trim_matches (c : char) (s : str) : str := trim_end_matches c (trim_start_matches c s).

(** [char::is_whitespace] (Unicode White_Space). *)
Definition is_whitespace (c : char) : bool :=
  (N.leb 0x9 c && N.leb c 0xD) || N.eqb c 0x20 || N.eqb c 0x85 || N.eqb c 0xA0 || N.eqb c 0x1680
  || (N.leb 0x2000 c && N.leb c 0x200A) || N.eqb c 0x2028 || N.eqb c 0x2029 || N.eqb c 0x202F
  || N.eqb c 0x205F || N.eqb c 0x3000.
Fixpoint trim_start_ws (s : str) : str :=
  match s with
  | x :: r => if is_whitespace x then trim_start_ws r else s
  | [] => []
  end.
(** [str::trim] *)
Definition trim_ws (s : str) : str := rev (trim_start_ws (rev (trim_start_ws s))).

(** [str::split(char)]: always at least one piece. *)
Fixpoint split (sep : char) (s : str) : list str :=
  match s with
  | [] => [[]]
  | c :: r =>
      if N.eqb c sep then [] :: split sep r
      else match split sep r with
           | p :: ps => (c :: p) :: ps
           | [] => [[c]]
           end
  end.

(** [str::replace(&str, &str)] with a non-empty pattern: scan from the left; [skip] counts the
    characters of the current match still to be dropped. *)
Fixpoint replace_scan (pat to : str) (skip : nat) (s : str) : str :=
  match s with
  | [] => []
  | c :: r =>
      match skip with
      | S k => replace_scan pat to k r
      | O => if starts_with pat (c :: r) then to ++ replace_scan pat to (length pat - 1) r
             else c :: replace_scan pat to 0 r
      end
  end.
(** [str::replace] with an empty pattern matches at every character boundary. *)
Fixpoint replace_empty (to : str) (s : str) : str :=
  match s with
  | [] => to
  | c :: r => to ++ c :: replace_empty to r
  end.
Definition replace (pat to s : str) : str :=
  match pat with [] => replace_empty to s | _ :: _ => replace_scan pat to 0 s end.

(** [char::is_ascii_alphanumeric] *)
Definition is_ascii_alphanumeric (c : char) : bool :=
  (N.leb 0x30 c && N.leb c 0x39) || (N.leb 0x41 c && N.leb c 0x5A) || (N.leb 0x61 c && N.leb c 0x7A).

(** Character constants. *)
Definition SPACE : char := 0x20%N.
Definition NEWLINE : char := 0x0A%N.
Definition SLASH : char := 0x2F%N.
Definition DOT : char := 0x2E%N.
Definition COMMA : char := 0x2C%N.
Definition COLON : char := 0x3A%N.
Definition RPAREN : char := 0x29%N.

(** [s.chars().next()] *)
Definition first_char (s : str) : option char := hd_error s.
