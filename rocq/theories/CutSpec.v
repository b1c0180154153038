(** Specification vocabulary for C109: where a text may be cut into two that are then normalized separately. *)
From Verif Require Import Base Utf8 Neologdn ModifierKind ChanomaModel CharSpec Spec SameSpec.

(** [x] stands left and [y] right of the cut, with nothing but characters of [gap] between them. *)
Inductive meet (gap : char -> Prop) (x y : char) : str -> str -> Prop :=
| meet_here a g g' b : Forall gap g -> Forall gap g' -> meet gap x y (a ++ [x] ++ g) (g' ++ [y] ++ b).
(** Two ASCII letters or digits stand around the cut, with spaces and nothing else between them. *)
Inductive word_gap : str -> str -> Prop :=
| word_here x y a n n' b : alnum x -> alnum y -> n + n' > 0 -> word_gap (a ++ [x] ++ repeat space n) (repeat space n' ++ [y] ++ b).
(** Kana and a sound mark stand around the cut, which would be composed, with spaces and tildes and nothing else between them. *)
Definition mark_gap (a b : str) : Prop := exists x m t, composes x m t /\ meet (fun c => c = space \/ In c tilde_variants) x m a b.
(** A key of the ligature map stands across the cut. *)
Inductive key_across (l : list (str * str)) : str -> str -> Prop :=
| across k v k1 k2 a b : In (k, v) l -> k = k1 ++ k2 -> k1 <> [] -> k2 <> [] -> key_across l (a ++ k1) (k2 ++ b).
Definition not_space (c : char) : Prop := c <> space.

(** The cut between [a] and [b] shows in the result of the modifier. *)
Inductive torn : modifier -> str -> str -> Prop :=
| torn_red k a b : ends_in (eq k) a -> begins_in (eq k) b -> torn (MRed k) a b
| torn_dot a b : word_gap a b -> torn MDot a b
| torn_trim a b : Exists not_space a -> Exists not_space b -> ends_in (eq space) a \/ begins_in (eq space) b -> torn MTrim a b
| torn_lig l a b : key_across l a b -> torn (MLig l) a b
(* neologdn: after its conversion of single characters *)
| torn_neo n a b a' b' : pointwise neologdn_rel a a' -> pointwise neologdn_rel b b' ->
    (ends_in (eq prolonged_mark) a' /\ begins_in (eq prolonged_mark) b') \/ word_gap a' b' \/ mark_gap a' b' -> torn (MNeo n) a b.

(** No stage of a pipeline shows the cut: [ask m s t] says that the modifier [m] makes [t] of [s]. *)
Inductive unseen (ask : modifier -> str -> str -> Prop) : list modifier -> str -> str -> Prop :=
| unseen_nil a b : unseen ask [] a b
| unseen_cons m c a b x y : ~ torn m a b -> ask m a x -> ask m b y -> unseen ask c x y -> unseen ask (m :: c) a b.
