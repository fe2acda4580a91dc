(** Specification vocabulary for random durations and the tests that use them. *)
From Coq Require Import List ZArith.
From Verif Require Import Cpp.
Import ListNotations.
Open Scope Z_scope.

(** A word of std::mt19937. *)
Definition word (w : Z) : Prop := 0 <= w < 2 ^ 32.
(** The generator [next] returns words only. *)
Definition words {G : Type} (next : G -> Z * G) : Prop := forall g, word (fst (next g)).
(** The duration that two words stand for: the digits of its distance from the shortest one. *)
Definition spells (hi lo d : Z) : Prop := word hi /\ word lo /\ d + 2 ^ 63 = hi * 2 ^ 32 + lo.
(** [l] are the durations that the next 2 * length l words of the generator stand for. *)
Fixpoint drawn {G : Type} (next : G -> Z * G) (g : G) (l : list Z) : Prop :=
  match l with
  | [] => True
  | d :: l => spells (fst (next g)) (fst (next (snd (next g)))) d /\ drawn next (snd (next (snd (next g)))) l
  end.
(** Durations for which the expectations on seconds can be computed at all, and those that
    besides are not short: at least 2^52 nanoseconds, which are 52 days. *)
Definition computable (d : Z) : Prop := - (2 ^ 63 - 2046) < d < 2 ^ 63 - 2047.
Definition long (d : Z) : Prop := 2 ^ 52 <= Z.abs d.
