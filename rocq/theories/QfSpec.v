(** The quintic Hermite polynomials, exactly. *)
From Coq Require Import Reals.
From Flocq Require Import Core BinarySingleNaN.
From Verif Require Import Cpp FloatModel FloatSpec QfModel.
Local Open Scope R_scope.

(** What a polynomial weighs: the motion from origin to destination, or a first or second
    derivative at one end. *)
Inductive weight := WMotion | WVelocityOrig | WVelocityDest | WAccelerationOrig | WAccelerationDest.
(** [hermite w] has degree five or less.  It, its first and its second derivative are zero
    at 0 and at 1 but for one of the six values, which is one. *)
Definition one_at (w : weight) : nat * R :=
  match w with
  | WMotion => (0%nat, 1)
  | WVelocityOrig => (1%nat, 0) | WVelocityDest => (1%nat, 1)
  | WAccelerationOrig => (2%nat, 0) | WAccelerationDest => (2%nat, 1)
  end.
Definition hermite (w : weight) (t : R) : R :=
  match w with
  | WMotion => 10 * t ^ 3 - 15 * t ^ 4 + 6 * t ^ 5
  | WVelocityOrig => t - 6 * t ^ 3 + 8 * t ^ 4 - 3 * t ^ 5
  | WVelocityDest => - 4 * t ^ 3 + 7 * t ^ 4 - 3 * t ^ 5
  | WAccelerationOrig => (t ^ 2 - 3 * t ^ 3 + 3 * t ^ 4 - t ^ 5) / 2
  | WAccelerationDest => (t ^ 3 - 2 * t ^ 4 + t ^ 5) / 2
  end.
Definition hermite' (w : weight) (t : R) : R :=
  match w with
  | WMotion => 30 * t ^ 2 - 60 * t ^ 3 + 30 * t ^ 4
  | WVelocityOrig => 1 - 18 * t ^ 2 + 32 * t ^ 3 - 15 * t ^ 4
  | WVelocityDest => - 12 * t ^ 2 + 28 * t ^ 3 - 15 * t ^ 4
  | WAccelerationOrig => (2 * t - 9 * t ^ 2 + 12 * t ^ 3 - 5 * t ^ 4) / 2
  | WAccelerationDest => (3 * t ^ 2 - 8 * t ^ 3 + 5 * t ^ 4) / 2
  end.
Definition hermite'' (w : weight) (t : R) : R :=
  match w with
  | WMotion => 60 * t - 180 * t ^ 2 + 120 * t ^ 3
  | WVelocityOrig => - 36 * t + 96 * t ^ 2 - 60 * t ^ 3
  | WVelocityDest => - 24 * t + 84 * t ^ 2 - 60 * t ^ 3
  | WAccelerationOrig => 1 - 9 * t + 18 * t ^ 2 - 10 * t ^ 3
  | WAccelerationDest => 3 * t - 12 * t ^ 2 + 10 * t ^ 3
  end.
(** The value of the derivative of order [n] at the end [t] of the segment. *)
Definition at_end (w : weight) (n : nat) (t : R) : R :=
  if Nat.eqb n (fst (one_at w)) then if Req_EM_T t (snd (one_at w)) then 1 else 0 else 0.
(** The function of the library for each. *)
Definition computed (w : weight) : f64 -> f_poly_coeffs :=
  match w with
  | WMotion => f_dest_from_orig
  | WVelocityOrig => f_d_orig | WVelocityDest => f_d_dest
  | WAccelerationOrig => f_d2_orig | WAccelerationDest => f_d2_dest
  end.
