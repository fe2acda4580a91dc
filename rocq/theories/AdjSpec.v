(** What adjoints and distances in double precision are measured against. *)
From Flocq Require Import Core BinarySingleNaN.
From Verif Require Import Cpp FloatModel FloatSpec NrmSpec Vec DriftModel DriftSpec FpsModel.
Local Open Scope R_scope.

(** Doubles that hold opposite values: neither a number, opposite infinities, or opposite
    numbers. *)
Definition opposite (x y : f64) : Prop :=
  (x = B754_nan /\ y = B754_nan) \/ (exists s, x = B754_infinity s /\ y = B754_infinity (negb s)) \/
  (finite x /\ finite y /\ val x = - val y).
(** Doubles that hold the same value, zero of either sign being one value. *)
Definition alike (x y : f64) : Prop := x = y \/ (finite x /\ finite y /\ val x = val y).
(** The same of the entries of vectors. *)
Definition vboth (P : f64 -> f64 -> Prop) (v w : fvec) : Prop := P (fx v) (fx w) /\ P (fy v) (fy w) /\ P (fz v) (fz w).
Definition tboth (P : f64 -> f64 -> Prop) (a b : ftan) : Prop := vboth P (frot_part a) (frot_part b) /\ vboth P (ftrans_part a) (ftrans_part b).
Definition tfinite (a : ftan) : Prop := vfinite (frot_part a) /\ vfinite (ftrans_part a).
(** No entry is bigger than [b]. *)
Definition vwithin (b : R) (v : fvec) : Prop := Rabs (val (fx v)) <= b /\ Rabs (val (fy v)) <= b /\ Rabs (val (fz v)) <= b.
Definition twithin (b : R) (a : ftan) : Prop := vwithin b (frot_part a) /\ vwithin b (ftrans_part a).
(** A stored vector has each entry within [e] of the one it should have. *)
Definition entries_off (e : R) (v : fvec) (q : vec3) : Prop :=
  vfinite v /\ Rabs (val (fx v) - vx q) <= e /\ Rabs (val (fy v) - vy q) <= e /\ Rabs (val (fz v) - vz q) <= e.
