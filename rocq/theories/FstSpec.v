(** What sample statistics in double precision are measured against. *)
From Coq Require Import Reals List.
From Flocq Require Import Core BinarySingleNaN.
From Verif Require Import Cpp FloatModel FloatSpec NrmSpec StatModel StatSpec FstModel.
Local Open Scope R_scope.

(** The sum of a list. *)
Definition add_up (l : list R) : R := fold_right Rplus 0 l.
(** The numbers a matrix holds. *)
Definition holds (a : fmatrix) : matrix := Matrix (frows a) (fcols a) (fun i j => val (fentry a i j)).
(** No entry is an infinity or NaN. *)
Definition all_finite (a : fmatrix) : Prop := forall i j, (i < frows a)%nat -> (j < fcols a)%nat -> finite (fentry a i j).
(** No entry is bigger than [b]. *)
Definition no_bigger (b : R) (a : fmatrix) : Prop := forall i j, (i < frows a)%nat -> (j < fcols a)%nat -> Rabs (val (fentry a i j)) <= b.
Definition average (n : nat) (f : nat -> R) : R := total n f / INR n.
(** The mean of a column and that of its absolute values. *)
Definition column_mean (s : matrix) (j : nat) : R := average (rows s) (fun k => entry s k j).
Definition magnitude (s : matrix) (j : nat) : R := average (rows s) (fun k => Rabs (entry s k j)).
(** Half of the smallest positive double. *)
Definition tiny : R := / 2 ^ 1075.
(** How far the mean of a column may be off. *)
Definition mean_error (s : matrix) (j : nat) : R := (INR (rows s) + 1) * u * magnitude s j + tiny.
(** The standard deviation of a column. *)
Definition deviation (s : matrix) (j : nat) : R := sqrt (pairwise_covariance s j j).
(** That, and twice the error of the mean. *)
Definition widened (s : matrix) (j : nat) : R := deviation s j + 2 * mean_error s j.
