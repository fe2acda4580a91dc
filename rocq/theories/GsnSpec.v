(** What Gaussians in double precision are measured against. *)
From Coq Require Import Reals ZArith.
From Flocq Require Import Core BinarySingleNaN.
From Verif Require Import Cpp FloatModel FloatSpec NrmSpec StatModel StatSpec FstModel FstSpec GsnModel.
Local Open Scope R_scope.

(** A mean of n entries and an n x n covariance, where n fits an unsigned int. *)
Definition sized (n : nat) (m : fvector) (c : fmatrix) : Prop :=
  fsize m = n /\ frows c = n /\ fcols c = n /\ (Z.of_nat n < 2^32)%Z.
(** The solver reports no numerical issue and n eigenvalues, none of them an infinity or
    NaN. *)
Definition solved (n : nat) (s : fsolution) : Prop :=
  finfo s <> NumericalIssue /\ fsize (fvalues s) = n /\ forall k, (k < n)%nat -> finite (fcoef (fvalues s) k).
(** The squares of the differences of mirrored entries, added up. *)
Definition asymmetry (c : fmatrix) : R := squares (frows c) (fun i j => val (fentry c i j) - val (fentry c j i)).
(** The squares of all entries, added up. *)
Definition weight (c : fmatrix) : R := squares (frows c) (fun i j => val (fentry c i j)).
(** The covariance of the samples that independent standard normal draws give, if [v] holds
    the directions and [s] the scales. *)
Definition given_covariance (n : nat) (v : nat -> nat -> R) (s : nat -> R) (i j : nat) : R :=
  total n (fun k => v i k * s k * (v j k * s k)).
