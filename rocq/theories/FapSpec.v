(** What approximate comparisons in double precision are measured against. *)
From Coq Require Import Reals.
From Flocq Require Import Core BinarySingleNaN.
From Verif Require Import Cpp FloatModel FloatSpec NrmSpec Vec RotSpec DriftModel DriftSpec.
Local Open Scope R_scope.

(** One part in 10^12. *)
Definition tolerance : R := / 10 ^ 12.
(** Entries of which one is at least [b] from zero. *)
Definition reaches (b : R) (v : fvec) : Prop := b <= Rabs (val (fx v)) \/ b <= Rabs (val (fy v)) \/ b <= Rabs (val (fz v)).
(** Poses of which no value is an infinity or NaN. *)
Definition pfinite (g : fpose) : Prop := mfinite (frot g) /\ vfinite (ftrans g).
