(** What the time lookup is measured against. *)
From Coq Require Import Reals.
From Flocq Require Import Core BinarySingleNaN.
From Verif Require Import Cpp FloatModel FloatSpec.
Local Open Scope R_scope.

Definition not_a_number (x : f64) : Prop := x = B754_nan.
(** Where a double is on the number line; the infinities lie beyond all others. *)
Definition place (x : f64) : R :=
  match x with
  | B754_infinity s => if s then - 2 ^ 1024 else 2 ^ 1024
  | _ => val x
  end.
(** Strictly increasing. *)
Fixpoint increasing (l : list f64) : Prop :=
  match l with
  | a :: (b :: _) as l' => place a < place b /\ increasing l'
  | _ => True
  end.
(** Half a unit in the last place of one. *)
Definition u : R := / 2 ^ 53.
(** Segments whose length is neither near the smallest nor near the biggest double. *)
Definition usual_length (a b : f64) : Prop := / 2 ^ 1021 <= val b - val a <= 2 ^ 1021.
(** The double m 2^e. *)
Definition double (m e : Z) : f64 := @binary_normalize 53 1024 prec_pos prec_emax mode_NE m e false.
(** [a] and [b] are the times of the control points number [i] and [i + 1]. *)
Definition adjacent (times : list f64) (i : nat) (a b : f64) : Prop :=
  nth_error times i = Some a /\ nth_error times (S i) = Some b.
(** How far [t] is from [a] to [b], as a fraction of the whole way. *)
Definition fraction (a b t : f64) : R := (val t - val a) / (val b - val a).
