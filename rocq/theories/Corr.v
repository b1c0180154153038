(** Model of /repo/src/corr.rs and /repo/src/corr/{item,linear,unification}.rs. *)
From Verif Require Import Base.

(** /repo/src/corr/item.rs:4-10 *)
Record item := Item { from : str; to : str }.

(** [Ord for String]: lexicographic.  Rust compares UTF-8 bytes; here code points are compared, which
    is the same order on valid strings (theorem C53). *)
Fixpoint str_cmp (a b : str) : comparison :=
  match a, b with
  | [], [] => Eq
  | [], _ :: _ => Lt
  | _ :: _, [] => Gt
  | x :: a', y :: b' => match N.compare x y with Eq => str_cmp a' b' | c => c end
  end.
(** Derived [Ord for Item], /repo/src/corr/item.rs:4: [from] first, then [to]. *)
Definition item_cmp (a b : item) : comparison :=
  match str_cmp (from a) (from b) with Eq => str_cmp (to a) (to b) | c => c end.
Definition item_leb (a b : item) : bool := match item_cmp a b with Gt => false | _ => true end.
(** Derived [PartialEq for Item] *)
Definition item_eqb (a b : item) : bool := str_eqb (from a) (from b) && str_eqb (to a) (to b).

(** [Vec::sort]: modelled as insertion sort; the standard library's stable merge sort gives the same
    list because [item_cmp] is a total order whose [Eq] is equality. *)
Fixpoint insert_sorted (x : item) (l : list item) : list item :=
  match l with
  | [] => [x]
  | y :: r => if item_leb x y then x :: l else y :: insert_sorted x r
  end.
Definition sort_items (l : list item) : list item := fold_right insert_sorted [] l.

(** A value implementing the trait [Corr] (/repo/src/corr.rs:15-30), i.e. what its [items()] returns.
    [items()] may itself run hash traversals, hence the schedule. *)
Definition corr := sched -> list item.

(** /repo/src/corr.rs:34-42: [Synthesized] *)
Definition synth (items : list item) : corr := fun _ => items.
(** /repo/src/corr/linear.rs:9-13 *)
Definition linear (f t : str) : corr := fun _ => [Item f t].
(** /repo/src/corr/unification.rs:8-15 *)
Definition unification (froms : list str) (t : str) : corr := fun _ => map (fun f => Item f t) froms.

(** /repo/src/corr.rs:145-164: [Add::add].  The HashSet is filled, drained in hash order, sorted. *)
Definition corr_add (o : sched) (a b : corr) : list item :=
  let items := hs_insert_all item_eqb (a (sub o 0)) [] in
  let items := hs_insert_all item_eqb (b (sub o 1)) items in
  sort_items (hash_iter (sub o 2) items).

(** /repo/src/corr.rs:166-182: [AddAssign::add_assign] *)
Definition corr_add_assign (o : sched) (self : list item) (rhs : corr) : list item :=
  let items := hs_insert_all item_eqb self [] in
  let items := hs_insert_all item_eqb (rhs (sub o 1)) items in
  sort_items (hash_iter (sub o 2) items).

(** /repo/src/corr.rs:184-202: [Sub::sub] *)
Definition corr_sub (o : sched) (a b : corr) : list item :=
  let comp_items := b (sub o 1) in
  let items := filter (fun it => negb (mem item_eqb it comp_items)) (a (sub o 0)) in
  sort_items items.

(** /repo/src/corr.rs:204-219: [SubAssign::sub_assign] *)
Definition corr_sub_assign (o : sched) (self : list item) (rhs : corr) : list item :=
  let comp_items := rhs (sub o 1) in
  let items := filter (fun it => negb (mem item_eqb it comp_items)) self in
  sort_items items.

(** Chains [a + &b + &c + ...] as written in /repo/src/characters_set/*.rs. *)
Fixpoint add_chain (o : sched) (k : nat) (acc : corr) (l : list corr) : list item :=
  match l with
  | [] => acc (sub o k)
  | c :: r => add_chain o (S k) (synth (corr_add (sub o k) acc c)) r
  end.

(** /repo/src/corr.rs:135-142: [PartialEq for Correspondence] compares the item vectors. *)
Fixpoint items_eqb (a b : list item) : bool :=
  match a, b with
  | [], [] => true
  | x :: a', y :: b' => item_eqb x y && items_eqb a' b'
  | _, _ => false
  end.
Definition corr_eqb (o : sched) (a b : corr) : bool := items_eqb (a (sub o 0)) (b (sub o 1)).

(** [BTreeMap<&String, Vec<&String>>] as a list sorted by key; [map.entry(k).or_insert_with(Vec::new).push(v)] *)
Fixpoint bt_push (k v : str) (m : list (str * list str)) : list (str * list str) :=
  match m with
  | [] => [(k, [v])]
  | (k', vs) :: r =>
      match str_cmp k k' with
      | Lt => (k, [v]) :: m
      | Eq => (k', vs ++ [v]) :: r
      | Gt => (k', vs) :: bt_push k v r
      end
  end.
(** /repo/src/corr.rs:69-75: [Synthesized::item_map] *)
Definition item_map (items : list item) : list (str * list str) :=
  fold_left (fun m it => bt_push (to it) (from it) m) items [].
