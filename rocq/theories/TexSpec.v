(** Specification of the program resim/examples/time.cc. *)
From Coq Require Import Reals ZArith.
From Coquelicot Require Import Coquelicot.
From Verif Require Import FloatModel FloatSpec NrmSpec.
Local Open Scope R_scope.

(** [i] is the integral of the deviation over the first [T] seconds. *)
Definition integral_to (T i : R) : Prop := is_RInt (fun t => cos (sqrt t)) 0 T i.

(** The [count] steps of [dt] nanoseconds at most that make up [total] nanoseconds. *)
Definition steps (total dt count : Z) : Prop := ((count - 1) * dt < total <= count * dt)%Z.

(** By how much the left rectangles of the width [step] exceed the integral over [T] seconds, the
    deviation starting from one. *)
Definition excess (T step : R) : R := step / 2 * (1 - cos (sqrt T)).
(** What else the computed sum may be off: the square of the step, the rounding of the sampling
    times to nanoseconds and the rounding of doubles. *)
Definition sum_error (T step : R) (count : Z) : R :=
  T * (step * step / 8 + / (4 * 10 ^ 9) + (IZR count + T + 2 * sqrt T + 9) * u).

(** With nine decimals [x] shows as [k] nanoseconds. *)
Definition shows (x : f64) (k : Z) : Prop := finite x /\ Rabs (val x * 10 ^ 9 - IZR k) < / 2.
