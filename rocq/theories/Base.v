(** Common vocabulary of the model: characters, strings, outcomes, hash containers. *)
From Coq Require Export Ascii String.
From Coq Require Export List Arith NArith Lia Bool Permutation.
Export ListNotations.
Global Open Scope list_scope.

(** A Rust [char]; a Unicode scalar value (see [is_scalar]).  Values >= 0x110000 are only used
    inside paths, for bytes that are not part of valid Unicode. *)
Definition char := N.
(** A Rust [String]/[&str] as its sequence of [char]s. *)
Definition str := list char.
(** A path: [str] plus possibly non-Unicode units (>= 0x110000). *)
Definition path := list char.

(** ASCII literals. *)
Definition lit (s : string) : str := map N_of_ascii (list_ascii_of_string s).

(** Models /repo/src/error.rs:7-24.  Payloads of wrapped library errors are dropped. *)
Inductive error : Type :=
| CsvFileLoadError
| YamlFileLoadError
| RcFileLoadError (p : path)
| UnsupportedFileExtensionError (ext : str)
| ModifierKindParseError (msg : str)
| FileExtensionNotFoundInPath (p : path)
| FileExtensionCanNotConvertToStr (p : path)
| IoError.

(** Result of running Rust code: a value, an [Err], or a panic. *)
Inductive outcome (A : Type) : Type :=
| Ok (a : A)
| Err (e : error)
| Panic.
Arguments Ok {A} a.
Arguments Err {A} e.
Arguments Panic {A}.

Definition bind {A B} (x : outcome A) (f : A -> outcome B) : outcome B :=
  match x with Ok a => f a | Err e => Err e | Panic => Panic end.
Notation "x <- e ;; k" := (bind e (fun x => k)) (at level 61, e at next level, right associativity).

(** [Option::unwrap]. *)
Definition unwrap {A} (x : option A) : outcome A :=
  match x with Some a => Ok a | None => Panic end.

(** Sequential traversal: the first element that does not give [Ok] decides. *)
Fixpoint traverse {A B} (f : A -> outcome B) (l : list A) : outcome (list B) :=
  match l with
  | [] => Ok []
  | x :: r => y <- f x ;; ys <- traverse f r ;; Ok (y :: ys)
  end.

(** ** Equality tests *)
Fixpoint str_eqb (a b : str) : bool :=
  match a, b with
  | [], [] => true
  | x :: a', y :: b' => N.eqb x y && str_eqb a' b'
  | _, _ => false
  end.

(** ** Hash containers.
    A [HashMap]/[HashSet] is its content as an association list / list without repeated keys; the
    traversal order is supplied by a schedule. *)
Section Hash.
  Context {K V : Type} (eqb : K -> K -> bool).
  (** [HashMap::get] *)
  Fixpoint hm_get (k : K) (m : list (K * V)) : option V :=
    match m with
    | [] => None
    | (k', v) :: r => if eqb k k' then Some v else hm_get k r
    end.
  (** [HashMap::insert] *)
  Fixpoint hm_insert (k : K) (v : V) (m : list (K * V)) : list (K * V) :=
    match m with
    | [] => [(k, v)]
    | (k', v') :: r => if eqb k k' then (k', v) :: r else (k', v') :: hm_insert k v r
    end.
  (** [iter.collect::<HashMap<_,_>>()]: insertion in order. *)
  Definition hm_collect (kvs : list (K * V)) : list (K * V) :=
    fold_left (fun m kv => hm_insert (fst kv) (snd kv) m) kvs [].
  (** [map.entry(k).or_insert_with(d)] followed by the in-place update [f]. *)
  Fixpoint hm_entry_update (k : K) (d : V) (f : V -> V) (m : list (K * V)) : list (K * V) :=
    match m with
    | [] => [(k, f d)]
    | (k', v) :: r => if eqb k k' then (k', f v) :: r else (k', v) :: hm_entry_update k d f r
    end.
  (** [HashSet::insert] *)
  Definition hs_insert (x : K) (s : list K) : list K := if existsb (eqb x) s then s else s ++ [x].
  Definition hs_insert_all (xs : list K) (s : list K) : list K :=
    fold_left (fun s x => hs_insert x s) xs s.
  (** [HashSet::get(..).is_some()], [Vec::contains] *)
  Definition mem (x : K) (s : list K) : bool := existsb (eqb x) s.
End Hash.

(** ** Schedules: the iteration order of hash containers.
    [shuffle picks l] repeatedly takes out the element number [pick mod remaining]. *)
Fixpoint remove_nth {A} (k : nat) (l : list A) : list A :=
  match l with
  | [] => []
  | x :: r => match k with O => r | S k' => x :: remove_nth k' r end
  end.
Fixpoint shuffle_n {A} (n : nat) (picks : list nat) (l : list A) : list A :=
  match n, l with
  | S n', x :: _ =>
      let k := Nat.modulo (hd 0 picks) (length l) in
      nth k l x :: shuffle_n n' (tl picks) (remove_nth k l)
  | _, _ => []
  end.
Definition shuffle {A} (picks : list nat) (l : list A) : list A := shuffle_n (length l) picks l.

(** A schedule gives the picks for every call site (a path of call numbers). *)
Definition sched := list nat -> list nat.
(** Schedule of the [k]-th sub-call. *)
Definition sub (o : sched) (k : nat) : sched := fun p => o (k :: p).
(** [map.iter()] / [set.into_iter()] *)
Definition hash_iter {A} (o : sched) (l : list A) : list A := shuffle (o []) l.
