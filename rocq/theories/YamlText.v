(** Model of YAML text: what [serde_yaml] 0.8 (with yaml-rust 0.4) prints for a [SerializedCorr]
    (/repo/src/bin/output.rs:27-32, /repo/src/file.rs:101-124), and how it reads a part of YAML
    (/repo/src/file.rs:63, 91). *)
From Coq Require Import String.
From Verif Require Import Base StrOps Corr Table Charset Yaml File.
Local Open Scope string_scope.
Local Open Scope list_scope.

Definition QUOT : char := 0x22%N.
Definition BACKSLASH : char := 0x5C%N.
Definition HASH : char := 0x23%N.
Definition MINUS : char := 0x2D%N.
Definition LBRACKET : char := 0x5B%N.
Definition RBRACKET : char := 0x5D%N.
Definition LBRACE : char := 0x7B%N.
Definition RBRACE : char := 0x7D%N.
Definition APOSTROPHE : char := 0x27%N.
Definition RETURN : char := 0x0D%N.
Definition in_text (t : string) (c : char) : bool := existsb (N.eqb c) (lit t).
Definition is_digit (c : char) : bool := (N.leb 0x30 c && N.leb c 0x39)%bool.

(** ** Printing (yaml-rust, emitter.rs) *)

(** [str::parse::<f64>] succeeds: a sign, then [inf], [infinity] or [nan] in any case, or digits with at most one point
    and at least one digit, and an exponent.  Every text [str::parse::<i64>] takes is one. *)
Fixpoint skip_digits (s : str) : str := match s with c :: r => if is_digit c then skip_digits r else s | [] => [] end.
Definition skip_sign (s : str) : str := match s with c :: r => if in_text "+-" c then r else s | [] => [] end.
Definition lower (c : char) : char := if (N.leb 0x41 c && N.leb c 0x5A)%bool then (c + 0x20)%N else c.
Definition shorter (a b : str) : bool := Nat.ltb (List.length a) (List.length b).
Definition exponent_only (s : str) : bool :=
  match s with
  | [] => true
  | c :: r => N.eqb (lower c) 0x65 && (let d := skip_sign r in shorter (skip_digits d) d && match skip_digits d with [] => true | _ => false end)
  end.
Definition float_text (s : str) : bool :=
  let s := skip_sign s in
  let w := map lower s in
  str_eqb w (lit "inf") || str_eqb w (lit "infinity") || str_eqb w (lit "nan") ||
  (let r := skip_digits s in
   match r with
   | c :: r' => if N.eqb c DOT then let e := skip_digits r' in (shorter r s || shorter e r') && exponent_only e
                else shorter r s && exponent_only r
   | [] => shorter r s
   end).

(** Words that are not printed plain. *)
Definition RESERVED : list str :=
  map lit ["yes"; "Yes"; "YES"; "no"; "No"; "NO"; "True"; "TRUE"; "true"; "False"; "FALSE"; "false";
           "on"; "On"; "ON"; "off"; "Off"; "OFF"; "null"; "Null"; "NULL"; "~"].
(** [need_quotes] *)
Definition quoted_char (c : char) : bool :=
  in_text ":{}[],#`'\" c || N.eqb c QUOT || N.leb c 0x06 || N.eqb c 0x09 || N.eqb c 0x0A || N.eqb c 0x0D ||
  (N.leb 0x0E c && N.leb c 0x1A) || (N.leb 0x1C c && N.leb c 0x1F).
Definition need_quotes (s : str) : bool :=
  match s with
  | [] => true
  | c :: _ => N.eqb c SPACE || N.eqb (last s c) SPACE || in_text "&*?|-<>=!%@" c || existsb quoted_char s ||
              mem str_eqb s RESERVED || N.eqb c DOT || starts_with (lit "0x") s || float_text s
  end.
(** [escape_str] *)
Definition hex_digit (n : N) : char := if N.ltb n 10 then (0x30 + n)%N else (0x57 + n)%N.
Definition escape_char (c : char) : str :=
  if N.eqb c QUOT then [BACKSLASH; QUOT]
  else if N.eqb c BACKSLASH then [BACKSLASH; BACKSLASH]
  else if N.eqb c 0x08 then [BACKSLASH; 0x62%N]
  else if N.eqb c 0x09 then [BACKSLASH; 0x74%N]
  else if N.eqb c 0x0A then [BACKSLASH; 0x6E%N]
  else if N.eqb c 0x0C then [BACKSLASH; 0x66%N]
  else if N.eqb c 0x0D then [BACKSLASH; 0x72%N]
  else if (N.ltb c 0x20 || N.eqb c 0x7F)%bool
       then [BACKSLASH; 0x75%N; 0x30%N; 0x30%N; hex_digit (N.div c 16); hex_digit (N.modulo c 16)]
  else [c].
Definition escape_str (s : str) : str := QUOT :: flat_map escape_char s ++ [QUOT].
(** A string as it is printed. *)
Definition emit_scalar (s : str) : str := if need_quotes s then escape_str s else s.

(** [write_indent] at nesting [level], two spaces each. *)
Definition indentation (level : nat) : str := repeat SPACE (2 * level).
(** [emit_array] below a key: a new line for every element (never empty here; an empty one is printed on the key's line). *)
Definition emit_sequence (level : nat) (l : list str) : str :=
  match l with
  | [] => lit " []"
  | _ => flat_map (fun x => [NEWLINE] ++ indentation level ++ [MINUS; SPACE] ++ emit_scalar x) l
  end.
(** [emit_hash] below a key, the values being sequences. *)
Definition emit_groups (level : nat) (groups : list (str * list str)) : str :=
  match groups with
  | [] => lit " {}"
  | _ => flat_map (fun kv => [NEWLINE] ++ indentation level ++ emit_scalar (fst kv) ++ [COLON] ++ emit_sequence (S level) (snd kv)) groups
  end.
(** [serde_yaml::to_string(&to_serialized_corr(corr))], without the line feed at its end that some 0.8 versions print. *)
Definition emit_corr (groups : list (str * list str)) : str :=
  lit "---" ++ [NEWLINE] ++ lit "items:" ++ emit_groups 1 groups.
Definition to_yaml_text (o : sched) (c : corr) : str := emit_corr (item_map (c o)).
(** /repo/src/bin/output.rs:27-32: what the output tool prints for [yaml]; [ends] counts the line feeds at the end. *)
Definition output_yaml (o : sched) (ends : nat) : str :=
  to_yaml_text (sub o 1) (table_corr (builder_preset (sub o 0) table_new)) ++ repeat NEWLINE ends.

(** ** Reading
    A part of YAML: one document; block mappings, block sequences, one-line flow sequences and mappings, plain, single-quoted
    and double-quoted one-line scalars, comments.  [None]: outside this part (nothing is claimed), not "an error". *)

(** Characters that may stand for themselves. *)
Definition printable (c : char) : bool :=
  (N.leb 0x20 c && N.ltb c 0x7F) ||
  (N.leb 0xA0 c && negb (N.eqb c 0x2028) && negb (N.eqb c 0x2029) && negb (N.eqb c 0xFEFF)).
(** The inside of a double-quoted scalar and what follows its closing quote. *)
Definition hex_value (c : char) : option N :=
  if is_digit c then Some (c - 0x30)%N
  else if (N.leb 0x61 c && N.leb c 0x66)%bool then Some (c - 0x57)%N
  else if (N.leb 0x41 c && N.leb c 0x46)%bool then Some (c - 0x37)%N
  else None.
Definition unescape (e : char) : option char :=
  if N.eqb e QUOT then Some QUOT
  else if N.eqb e BACKSLASH then Some BACKSLASH
  else if N.eqb e 0x62 then Some 0x08%N
  else if N.eqb e 0x74 then Some 0x09%N
  else if N.eqb e 0x6E then Some 0x0A%N
  else if N.eqb e 0x66 then Some 0x0C%N
  else if N.eqb e 0x72 then Some 0x0D%N
  else None.
Definition cons_to (c : char) (x : option (str * str)) : option (str * str) :=
  match x with Some (s, r) => Some (c :: s, r) | None => None end.
Fixpoint read_quoted (s : str) : option (str * str) :=
  match s with
  | [] => None
  | c :: r =>
      if N.eqb c QUOT then Some ([], r)
      else if N.eqb c BACKSLASH then
        match r with
        | [] => None
        | e :: r1 =>
            match unescape e with
            | Some x => cons_to x (read_quoted r1)
            | None =>
                if N.eqb e 0x75 then
                  match r1 with
                  | h1 :: h2 :: h3 :: h4 :: r5 =>
                      match hex_value h1, hex_value h2, hex_value h3, hex_value h4 with
                      | Some a, Some b, Some c, Some d =>
                          let x := (((a * 16 + b) * 16 + c) * 16 + d)%N in
                          if (N.ltb x 0xD800 || N.leb 0xE000 x)%bool then cons_to x (read_quoted r5) else None
                      | _, _, _, _ => None
                      end
                  | _ => None
                  end
                else None
            end
        end
      else if printable c then cons_to c (read_quoted r) else None
  end.
(** A plain scalar: printable, no indicator ([<] and [=] count as such) at the start, no brackets, braces, quotation marks, backslashes
    and none of [: # ,] anywhere, no space at either end. *)
Definition plain_text (s : str) : bool :=
  match s with
  | [] => false
  | c :: _ => negb (in_text "-?&*!|<>=%@ " c) && negb (N.eqb (last s c) SPACE) &&
              forallb (fun c => printable c && negb (in_text ":#,[]{}`'""\" c)) s
  end.
(** What a plain scalar stands for.  Words only some readers take for something else than text, texts starting with a point
    and numbers that are not decimal, start with a point or a superfluous zero, have an exponent or more than 150 characters are
    left out. *)
Definition radix_text (s : str) : bool :=
  let s := skip_sign s in starts_with (lit "0x") s || starts_with (lit "0o") s || starts_with (lit "0b") s.
Definition leading_zero (s : str) : bool :=
  match skip_sign s with z :: d :: _ => N.eqb z 0x30 && is_digit d | _ => false end.
Definition resolve (s : str) : option yval :=
  if str_eqb s (lit "true") || str_eqb s (lit "false") then Some YBool
  else if str_eqb s (lit "null") || str_eqb s (lit "~") then Some YNull
  else if mem str_eqb s RESERVED || radix_text s || starts_with [DOT] s then None
  else if float_text s then
    (if (existsb is_digit s && negb (leading_zero s) && negb (starts_with [DOT] (skip_sign s)) && negb (existsb (fun c => N.eqb (lower c) 0x65) s) && Nat.leb (List.length s) 150)%bool then Some YNum else None)
  else Some (YStr s).
Definition read_plain (s : str) : option yval := if plain_text s then resolve s else None.
(** The inside of a single-quoted scalar and what follows its closing quote; two quotes stand for one. *)
Fixpoint read_single (s : str) : option (str * str) :=
  match s with
  | [] => None
  | c :: r =>
      if N.eqb c APOSTROPHE then
        match r with
        | d :: r' => if N.eqb d APOSTROPHE then cons_to APOSTROPHE (read_single r') else Some ([], r)
        | [] => Some ([], [])
        end
      else if printable c then cons_to c (read_single r) else None
  end.
Definition read_scalar (s : str) : option yval :=
  match s with
  | c :: r => if N.eqb c QUOT then match read_quoted r with Some (x, []) => Some (YStr x) | _ => None end
              else if N.eqb c APOSTROPHE then match read_single r with Some (x, []) => Some (YStr x) | _ => None end
              else read_plain s
  | [] => None
  end.
Definition skip_spaces (s : str) : str := trim_start_matches SPACE s.
Definition after_colon (r : str) : bool := match r with [] => true | c :: _ => N.eqb c SPACE end.
(** A key may follow the keys [seen]: it is another text, or the first key that is not a text. *)
Definition fresh (k : yval) (seen : list yval) : bool :=
  match k with
  | YStr s => negb (existsb (fun x => match x with YStr t => str_eqb s t | _ => false end) seen)
  | _ => forallb (fun x => match x with YStr _ => true | _ => false end) seen
  end.
(** Flow sequences and mappings: a scalar inside one, up to the next indicator (for some readers the question
    mark is one), and what follows it and the spaces after it. *)
Fixpoint cut_flow (s : str) : str * str :=
  match s with
  | c :: r => if in_text ",[]{}:?" c then ([], s) else let '(x, y) := cut_flow r in (c :: x, y)
  | [] => ([], [])
  end.
Definition flow_scalar (s : str) : option (yval * str) :=
  match s with
  | c :: r => if N.eqb c QUOT then match read_quoted r with Some (x, y) => Some (YStr x, skip_spaces y) | None => None end
              else if N.eqb c APOSTROPHE then match read_single r with Some (x, y) => Some (YStr x, skip_spaces y) | None => None end
              else let '(x, y) := cut_flow s in match read_plain (trim_end_matches SPACE x) with Some v => Some (v, y) | None => None end
  | [] => None
  end.
(** A flow node; elements or pairs up to the closing bracket (no empty ones, no comma after the last). *)
Fixpoint read_flow (f : nat) (s : str) : option (yval * str) :=
  match f, s with
  | S f, c :: r =>
      if N.eqb c LBRACKET then
        match skip_spaces r with
        | [] => None
        | d :: y => if N.eqb d RBRACKET then Some (YSeq [], skip_spaces y)
                    else match flow_elements f (d :: y) with Some (vs, z) => Some (YSeq vs, z) | None => None end
        end
      else if N.eqb c LBRACE then
        match skip_spaces r with
        | [] => None
        | d :: y => if N.eqb d RBRACE then Some (YMap [], skip_spaces y)
                    else match flow_pairs f [] (d :: y) with Some (kvs, z) => Some (YMap kvs, z) | None => None end
        end
      else flow_scalar s
  | _, _ => None
  end
with flow_elements (f : nat) (s : str) : option (list yval * str) :=
  match f with
  | S f =>
      match read_flow f s with
      | Some (v, d :: r) =>
          if N.eqb d RBRACKET then Some ([v], skip_spaces r)
          else if N.eqb d COMMA then match flow_elements f (skip_spaces r) with Some (vs, z) => Some (v :: vs, z) | None => None end
          else None
      | _ => None
      end
  | O => None
  end
with flow_pairs (f : nat) (seen : list yval) (s : str) : option (list (yval * yval) * str) :=
  match f with
  | S f =>
      match flow_scalar s with
      | Some (k, d :: r) =>
          if (N.eqb d COLON && starts_with [SPACE] r && fresh k seen && Nat.leb (List.length s - List.length r) 1000)%bool then
            match read_flow f (skip_spaces r) with
            | Some (v, e :: y) =>
                if N.eqb e RBRACE then Some ([(k, v)], skip_spaces y)
                else if N.eqb e COMMA then match flow_pairs f (k :: seen) (skip_spaces y) with Some (kvs, z) => Some ((k, v) :: kvs, z) | None => None end
                else None
            | _ => None
            end
          else None
      | _ => None
      end
  | O => None
  end.
Definition read_inline (s : str) : option yval :=
  match s with
  | c :: r => if (N.eqb c LBRACKET || N.eqb c LBRACE)%bool then match read_flow (S (2 * List.length s)) s with Some (v, []) => Some v | _ => None end
              else read_scalar s
  | [] => None
  end.

(** A key with its colon, at most 1000 characters (yaml-rust allows 1024), and the rest of the line. *)
Fixpoint cut_colon (s : str) : option (str * str) :=
  match s with
  | [] => None
  | c :: r => if N.eqb c COLON then Some ([], r) else cons_to c (cut_colon r)
  end.
Definition cut_key (s : str) : option (yval * str) :=
  let k := match s with
           | c :: r => if N.eqb c QUOT
                       then match read_quoted r with
                            | Some (x, d :: rest) => if N.eqb d COLON then Some (YStr x, rest) else None
                            | _ => None
                            end
                       else if N.eqb c APOSTROPHE
                       then match read_single r with
                            | Some (x, d :: rest) => if N.eqb d COLON then Some (YStr x, rest) else None
                            | _ => None
                            end
                       else match cut_colon s with
                            | Some (x, rest) => option_map (fun v => (v, rest)) (read_plain x)
                            | None => None
                            end
           | [] => None
           end in
  match k with
  | Some (v, rest) => if (after_colon rest && Nat.leb (List.length s - List.length rest) 1000)%bool then Some (v, rest) else None
  | None => None
  end.
(** The lines that are not blank and not comments (of printable characters; a carriage return or zero would end one), each with
    its indentation, without the spaces, the comment and the carriage return at its end.  A comment follows a space outside of
    quotation marks. *)
Definition line := (nat * str)%type.
Fixpoint indented (s : str) : line :=
  match s with
  | c :: r => if N.eqb c SPACE then let '(n, x) := indented r in (S n, x) else (0, s)
  | [] => (0, [])
  end.
Fixpoint strip_comment (q : option char) (s : str) : str :=
  match s with
  | [] => []
  | c :: r =>
      match q with
      | Some d =>
          if N.eqb c d then c :: strip_comment None r
          else if (N.eqb c BACKSLASH && N.eqb d QUOT)%bool then match r with e :: r' => c :: e :: strip_comment q r' | [] => [c] end
          else c :: strip_comment q r
      | None =>
          if (N.eqb c SPACE && starts_with [HASH] r && forallb printable r)%bool then []
          else c :: strip_comment (if (N.eqb c QUOT || N.eqb c APOSTROPHE)%bool then Some c else None) r
      end
  end.
Definition tidy (s : str) : str := trim_end_matches SPACE (strip_comment None s).
Definition drop_return (s : str) : str := match strip_suffix_char RETURN s with Some x => x | None => s end.
Definition content_line (l : str) : list line :=
  let '(n, x) := indented (drop_return l) in
  match x with [] => [] | c :: _ => if (N.eqb c HASH && forallb printable x)%bool then [] else [(n, tidy x)] end.
Definition content_lines (t : str) : list line := flat_map content_line (split NEWLINE t).
(** A line starting with a hyphen: what follows it, and how far to the right. *)
Definition cut_dash (s : str) : option line :=
  match s with
  | c :: r => if N.eqb c MINUS
              then match r with
                   | [] => Some (1, [])
                   | d :: r' => if N.eqb d SPACE then let '(i, x) := indented r' in Some (2 + i, x) else None
                   end
              else None
  | [] => None
  end.

(** A node starting with the first line, and the lines after it; a sequence and a mapping at indentation [n].  The sequence that
    is the value of a key need not be indented further than the key. *)
Fixpoint read_node (f : nat) (ls : list line) : option (yval * list line) :=
  match f, ls with
  | S f, (n, s) :: r =>
      match cut_dash s with
      | Some _ => match read_seq f n ls with Some (vs, r) => Some (YSeq vs, r) | None => None end
      | None =>
          match cut_key s with
          | Some _ => match read_map f n [] ls with Some (kvs, r) => Some (YMap kvs, r) | None => None end
          | None => match read_inline s with Some v => Some (v, r) | None => None end
          end
      end
  | _, _ => None
  end
with read_seq (f : nat) (n : nat) (ls : list line) : option (list yval * list line) :=
  match f, ls with
  | S f, (m, s) :: r =>
      if Nat.ltb m n then Some ([], ls)
      else if Nat.eqb m n then
        match cut_dash s with
        | Some (i, x) =>
            let element := match x with
                           | [] => match r with
                                   | (m', _) :: _ => if Nat.ltb n m' then read_node f r else Some (YNull, r)
                                   | [] => Some (YNull, r)
                                   end
                           | _ => read_node f ((n + i, x) :: r)
                           end in
            match element with
            | Some (v, r') => match read_seq f n r' with Some (vs, r'') => Some (v :: vs, r'') | None => None end
            | None => None
            end
        | None => Some ([], ls)
        end
      else None
  | S _, [] => Some ([], [])
  | O, _ => None
  end
with read_map (f : nat) (n : nat) (seen : list yval) (ls : list line) : option (list (yval * yval) * list line) :=
  match f, ls with
  | S f, (m, s) :: r =>
      if Nat.ltb m n then Some ([], ls)
      else if Nat.eqb m n then
        match cut_key s with
        | Some (k, rest) =>
            if fresh k seen then
              let value := match skip_spaces rest with
                           | [] => match r with
                                   | (m', s') :: _ =>
                                       if Nat.ltb n m' then read_node f r
                                       else match (if Nat.eqb n m' then cut_dash s' else None) with
                                            | Some _ => match read_seq f n r with Some (vs, r') => Some (YSeq vs, r') | None => None end
                                            | None => Some (YNull, r)
                                            end
                                   | [] => Some (YNull, r)
                                   end
                           | x => option_map (fun v => (v, r)) (read_inline x)
                           end in
              match value with
              | Some (v, r') => match read_map f n (k :: seen) r' with Some (kvs, r'') => Some ((k, v) :: kvs, r'') | None => None end
              | None => None
              end
            else None
        | None => None
        end
      else None
  | S _, [] => Some ([], [])
  | O, _ => None
  end.

(** Sequences and mappings nested at most [d] deep (keys are scalars). *)
Fixpoint shallow (d : nat) (v : yval) : bool :=
  match v, d with
  | YSeq l, S d => forallb (shallow d) l
  | YMap l, S d => forallb (fun kv => shallow d (snd kv)) l
  | YSeq _, O | YMap _, O => false
  | _, _ => true
  end.
(** A document: an optional [---] line and a node nested at most 100 deep (serde_yaml refuses more than 128). *)
Definition read_document (t : str) : option yval :=
  let ls := match content_lines t with
            | (n, s) :: r => if (Nat.eqb n 0 && str_eqb s (lit "---"))%bool then r else (n, s) :: r
            | [] => []
            end in
  match read_node (S (4 * List.length t)) ls with
  | Some (v, []) => if shallow 100 v then Some v else None
  | _ => None
  end.
