(** Specification notions for C93: repeating a normalisation. *)
From Verif Require Import Base StrOps ModifierKind ChanomaModel PropsPipeline.

(** [out] is what [n] normalisations by [c], each of the previous result, make of [s]. *)
Inductive passes (c : chanoma) : nat -> str -> str -> Prop :=
| passes_none s : passes c 0 s s
| passes_more n s mid out : passes c n s mid -> result c mid out -> passes c (S n) s out.
(** Further normalisation leaves the text alone. *)
Definition settled (c : chanoma) (s : str) : Prop := forall out, result c s out <-> out = s.
(** The modifiers that only remove characters. *)
Definition removing (m : modifier) : Prop := (exists el, m = MElim el) \/ (exists k, m = MRed k) \/ m = MDot \/ m = MTrim.
