(** Sample statistics in double precision: resim/math/sample_statistics.hh. *)
From Coq Require Import ZArith List Permutation.
From Flocq Require Import Core BinarySingleNaN.
From Verif Require Import Cpp FloatModel StatModel.
Import ListNotations.

(** Eigen::MatrixXd and Eigen::VectorXd; only the entries inside the bounds matter
    (sample_statistics.hh:20, 29). *)
Record fmatrix := FMatrix { frows : nat; fcols : nat; fentry : nat -> nat -> f64 }.
Record fvector := FVector { fsize : nat; fcoef : nat -> f64 }.

(** Sums as Eigen computes them, in colwise().mean() and in the coefficients of a matrix
    product (sample_statistics.hh:21, 35, 37).  Where Eigen uses vector instructions and
    blocks it adds in an order that depends on the sizes, starting from zeros; any order and
    grouping is allowed here, and adding zeros too. *)
Inductive fsum_of : list f64 -> f64 -> Prop :=
| sum_none : fsum_of [] (of_int 0)
| sum_one x : fsum_of [x] x
| sum_both l k k' x y : Permutation l (k ++ k') -> fsum_of k x -> fsum_of k' y -> fsum_of l (fadd x y).

(** colwise().mean() (sample_statistics.hh:21, 35): DenseBase::mean divides the sum by the size
    as a double.  Reducing an empty column violates Eigen's precondition. *)
Definition fcolwise_mean (a : fmatrix) (result : outcome (nat -> f64)) : Prop :=
  if ((frows a =? 0)%nat && negb (fcols a =? 0)%nat)%bool then result = UB
  else exists m, result = Ok m /\ forall j, (j < fcols a)%nat ->
    exists s, fsum_of (map (fun i => fentry a i j) (seq 0 (frows a))) s /\ m j = fdivide s (of_int (Z.of_nat (frows a))).
(** mean (sample_statistics.hh:20-22). *)
Definition fmean (samples : fmatrix) (result : outcome fvector) : Prop :=
  exists r, fcolwise_mean samples r /\ result = let* m := r in Ok (FVector (fcols samples) m).
(** covariance (sample_statistics.hh:29-39). *)
Definition fcovariance (samples : fmatrix) (result : outcome fmatrix) : Prop :=
  let sample_count := to_unsigned (frows samples) in
  if (1 <? sample_count)%Z then
    exists r, fcolwise_mean samples r /\
    match r with
    | Ok m =>
        let zero_mean k j := fsub (fentry samples k j) (m j) in
        exists c, result = Ok (FMatrix (fcols samples) (fcols samples) c) /\
          forall i j, (i < fcols samples)%nat -> (j < fcols samples)%nat ->
          exists s, fsum_of (map (fun k => fmul (zero_mean k i) (zero_mean k j)) (seq 0 (frows samples))) s /\
            c i j = fdivide s (of_int (sample_count - 1))
    | Throw => result = Throw
    | UB => result = UB
    end
  else result = Throw.
