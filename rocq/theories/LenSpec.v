(** What the arc lengths of a distance curve are measured against. *)
From Coq Require Import Reals.
From Flocq Require Import Core BinarySingleNaN.
From Verif Require Import Cpp FloatModel FloatSpec NrmSpec.
Local Open Scope R_scope.

(** What a norm computes if it is not NaN: zero, a positive number or plus infinity. *)
Definition a_length (x : f64) : Prop := ~ not_a_number x /\ 0 <= place x.
(** The exact sum. *)
Definition total (l : list f64) : R := fold_right Rplus 0 (map val l).
