(** Specification vocabulary for doubles. *)
From Coq Require Import Reals.
From Flocq Require Import Core BinarySingleNaN.
From Verif Require Import Cpp FloatModel.
Local Open Scope R_scope.

(** The real number nearest to [x] among those with 53 significant bits and no bit below
    2^-1074, ties to even: what a double operation computes unless it overflows. *)
Definition rd (x : R) : R := round radix2 (FLT_exp (-1074) 53) ZnearestE x.
(** A double that is a number, and its value. *)
Definition finite (x : f64) : Prop := is_finite x = true.
Definition val (x : f64) : R := B2R x.
(** Results of rounding that are too big for a double. *)
Definition overflows (x : R) : Prop := 2 ^ 1024 <= Rabs (rd x).

(** Step sizes sample_interval takes: a positive number or plus infinity. *)
Definition positive_step (dt : f64) : Prop := dt = B754_infinity false \/ (finite dt /\ 0 < val dt).
(** The computed number of steps, before rounding up to an integer. *)
Definition step_ratio (s e dt : f64) (q : R) : Prop :=
  (dt = B754_infinity false /\ q = 0) \/ (finite dt /\ q = rd (rd (Rabs (val e - val s)) / val dt)).
(** The smallest integer that is at least [q]. *)
Definition rounded_up (q : R) (n : Z) : Prop := IZR n - 1 < q <= IZR n.
(** The point i n-ths of the way from [s] to [e]. *)
Definition on_the_way (s e : R) (n i : Z) : R := (1 - IZR i / IZR n) * s + IZR i / IZR n * e.
