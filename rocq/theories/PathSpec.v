(** Specification vocabulary for paths. *)
From Verif Require Import Base.
Definition slash : N := 0x2F%N.
Definition dot : N := 0x2E%N.
(** Trailing ["/"] and ["/."], which do not name anything. *)
Inductive trail : path -> Prop :=
| trail_nil : trail []
| trail_slash t : trail t -> trail (slash :: t)
| trail_dot t : trail t -> trail (slash :: dot :: t).
(** The last component of [p] is the name [n]. *)
Definition named (p n : path) : Prop :=
  exists dir t, p = dir ++ n ++ t /\ (dir = [] \/ exists d, dir = d ++ [slash]) /\ trail t /\
    n <> [] /\ ~ In slash n /\ n <> [dot] /\ n <> [dot; dot].
(** The last component is ["stem.e"] with a non-empty stem; [e] has no dot. *)
Definition has_extension (p e : path) : Prop :=
  exists stem, stem <> [] /\ ~ In dot e /\ named p (stem ++ [dot] ++ e).
(** [n] in the directory [d]. *)
Definition in_dir (d n : path) : path :=
  match rev d with
  | [] => n
  | c :: _ => if N.eq_dec c slash then d ++ n else d ++ [slash] ++ n
  end.
(** All units are characters. *)
Definition unicode (p : path) : Prop := Forall (fun c => (c < 0x110000)%N) p.
