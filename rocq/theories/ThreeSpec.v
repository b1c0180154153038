(** Vocabulary of C113: what pipelines of conversions, eliminations and run reductions leave out. *)
From Verif Require Import Base Converter Eliminator Ligature Neologdn ModifierKind ChanomaModel Spec PropsPipeline.

(** Conversions, eliminations and run reductions. *)
Inductive sifter : modifier -> Prop :=
| sift_conv cc : sifter (MConv cc)
| sift_elim el : sifter (MElim el)
| sift_red k : sifter (MRed k).

(** A character behind the text [p] is left out: it is removed wherever it stands, or a run reduction of the
    pipeline meets it next to the image of an earlier character, all characters between the two being gone by then. *)
Inductive left_out (c : chanoma) (p : str) (x : char) : Prop :=
| out_gone : result c [x] [] -> left_out c p x
| out_merged a k b u y w : c = a ++ MRed k :: b -> p = u ++ y :: w -> result a [y] [k] -> result a [x] [k] ->
    (forall v, In v w -> result a [v] []) -> left_out c p x.

(** [sifted c p s out]: [out] has, in order, the images of the characters of [s] (behind [p]) that are not left out. *)
Inductive sifted (c : chanoma) : str -> str -> str -> Prop :=
| sifted_nil p : sifted c p [] []
| sifted_out p x s out : left_out c p x -> sifted c (p ++ [x]) s out -> sifted c p (x :: s) out
| sifted_kept p x z s out : ~ left_out c p x -> result c [x] [z] -> sifted c (p ++ [x]) s out -> sifted c p (x :: s) (z :: out).

(** [part u t]: [u] is [t] with some characters left out. *)
Inductive part : str -> str -> Prop :=
| part_nil : part [] []
| part_skip x u t : part u t -> part u (x :: t)
| part_take x u t : part u t -> part (x :: u) (x :: t).

(** [A] has the characters the modifier speaks of. *)
Inductive speaks_of (A : list char) : modifier -> Prop :=
| speaks_conv cc : (forall c d, In (c, d) cc -> In c A) -> speaks_of A (MConv cc)
| speaks_elim l : incl l A -> speaks_of A (MElim l)
| speaks_red k : In k A -> speaks_of A (MRed k).
