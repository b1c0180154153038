(** Vocabulary of C116. *)
From Verif Require Import Base Converter Eliminator Ligature Neologdn ModifierKind ChanomaModel Spec PropsPipeline ThreeSpec.

(** Conversions, eliminations, run reductions, dotted-space eliminations and trims. *)
Inductive simple : modifier -> Prop :=
| simple_sifter m : sifter m -> simple m
| simple_dot : simple MDot
| simple_trim : simple MTrim.
(** What the conversions of a pipeline make of a character that no elimination takes away. *)
Inductive carried : chanoma -> char -> char -> Prop :=
| carried_end x : carried [] x x
| carried_conv cc c x y z : result [MConv cc] [x] [y] -> carried c y z -> carried (MConv cc :: c) x z
| carried_elim el c x z : ~ In x el -> carried c x z -> carried (MElim el :: c) x z
| carried_red k c x z : carried c x z -> carried (MRed k :: c) x z
| carried_dot c x z : carried c x z -> carried (MDot :: c) x z
| carried_trim c x z : carried c x z -> carried (MTrim :: c) x z.
(** [in_order D B s out]: [s] is a sequence of characters of [D], which leave nothing, and of blocks, each of which leaves one
    character, as [B] says. *)
Inductive in_order (D : char -> Prop) (B : str -> char -> Prop) : str -> str -> Prop :=
| io_nil : in_order D B [] []
| io_drop x s out : D x -> in_order D B s out -> in_order D B (x :: s) out
| io_block u y s out : B u y -> in_order D B s out -> in_order D B (u ++ s) (y :: out).
(** What neologdn converts a character to. *)
Definition converted (x y : char) : Prop := neologdn_rel x y \/ (y = x /\ forall t, ~ neologdn_rel x t).
(** Spaces and tildes, after the conversion. *)
Definition blank_or_tilde (x : char) : Prop := converted x space \/ exists t, In t tilde_variants /\ converted x t.
(** A block of neologdn: one character, or a kana and a sound mark with nothing but spaces and tildes between them. *)
Inductive neo_block : str -> char -> Prop :=
| nb_one x y : converted x y -> neo_block [x] y
| nb_two x a mid m b y : converted x a -> converted m b -> composes a b y -> Forall blank_or_tilde mid -> neo_block (x :: mid ++ [m]) y.
