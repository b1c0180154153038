(** Specification vocabulary for further properties of neologdn (C60-C63, C67). *)
From Verif Require Import Base Spec.

(** Characters that play no part in neologdn: neither converted nor a result of conversion, neither
    prolonged sound mark, space nor tilde, and in no composition. *)
Definition untouched (c : char) : Prop :=
  (forall t, ~ neologdn_rel c t) /\ (forall b, ~ neologdn_rel b c) /\
  c <> prolonged_mark /\ c <> space /\ ~ In c tilde_variants /\
  (forall a m t, composes a m t -> c <> a /\ c <> m /\ c <> t).
(** The full-width equals sign becomes the ASCII one. *)
Definition equals_sign (c t : char) : Prop := c = 0xFF1D%N /\ t = 0x3D%N.
(** Number of occurrences. *)
Definition occurrences (c : char) (s : str) : nat := count_occ N.eq_dec s c.
Definition ascii (s : str) : Prop := Forall (fun c => (c < 0x80)%N) s.
