(** Model of the parts of Rust's [char]/[str] that expose UTF-8: [char::len_utf8], [str::len],
    [char_indices], and the encoding itself.  These are standard-library functions used by
    /repo/src/modifier/*.rs; the source of each use is cited where it is used. *)
From Verif Require Import Base.

(** Unicode scalar values: what a Rust [char] can hold. *)
Definition is_scalar (c : char) : bool :=
  (N.ltb c 0xD800 || (N.leb 0xE000 c && N.ltb c 0x110000))%bool.
Definition valid_str (s : str) : Prop := Forall (fun c => is_scalar c = true) s.

(** [char::len_utf8] *)
Definition len_utf8 (c : char) : nat :=
  if N.ltb c 0x80 then 1 else if N.ltb c 0x800 then 2 else if N.ltb c 0x10000 then 3 else 4.

(** [str::len]: length in bytes. *)
Definition blen (s : str) : nat := fold_right (fun c n => len_utf8 c + n) 0 s.

(** [char::encode_utf8] *)
Definition encode_char (c : char) : list N :=
  (if N.ltb c 0x80 then [c]
   else if N.ltb c 0x800 then [0xC0 + c / 64; 0x80 + c mod 64]
   else if N.ltb c 0x10000 then [0xE0 + c / 4096; 0x80 + (c / 64) mod 64; 0x80 + c mod 64]
   else [0xF0 + c / 262144; 0x80 + (c / 4096) mod 64; 0x80 + (c / 64) mod 64; 0x80 + c mod 64])%N.
(** [str::as_bytes] *)
Definition encode (s : str) : list N := flat_map encode_char s.

(** [iter.enumerate()] starting at [i]. *)
Fixpoint enumerate_from {A} (i : nat) (l : list A) : list (nat * A) :=
  match l with [] => [] | x :: r => (i, x) :: enumerate_from (S i) r end.
Definition enumerate {A} (l : list A) : list (nat * A) := enumerate_from 0 l.

(** [str::char_indices]: byte offset of every character. *)
Fixpoint char_indices_from (b : nat) (s : str) : list (nat * char) :=
  match s with [] => [] | c :: r => (b, c) :: char_indices_from (b + len_utf8 c) r end.
Definition char_indices (s : str) : list (nat * char) := char_indices_from 0 s.
