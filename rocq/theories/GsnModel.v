(** Multivariate Gaussians in double precision: resim/math/multivariate_gaussian.{hh,cc}.
    Eigen's eigenvalue solver is a parameter, and so are the numbers drawn from the standard
    normal distribution; how they are drawn is in StatModel. *)
From Coq Require Import ZArith List Bool.
From Flocq Require Import Core BinarySingleNaN.
From Verif Require Import Cpp FloatModel LenModel DriftModel SpinModel StatModel FstModel FapModel.
Import ListNotations.

(** The coefficients of Eigen::MatrixXd and Eigen::VectorXd in storage order
    (multivariate_gaussian.cc:32, 66, 69). *)
Definition fcoeffs (a : fmatrix) : list f64 := flat_map (fun j => map (fun i => fentry a i j) (seq 0 (frows a))) (seq 0 (fcols a)).
Definition fvcoeffs (v : fvector) : list f64 := map (fcoef v) (seq 0 (fsize v)).
(** transpose() (multivariate_gaussian.cc:32). *)
Definition ftransposed (a : fmatrix) : fmatrix := FMatrix (fcols a) (frows a) (fun i j => fentry a j i).

(** maxCoeff() and minCoeff() (multivariate_gaussian.cc:66, 69).  Eigen compares in any
    order; if a coefficient is NaN the result is one of the coefficients, it does not say
    which (PropagateFast).  Of an empty matrix they violate Eigen's precondition. *)
Definition fmax_coeff (l : list f64) (m : f64) : Prop := In m l /\ (In B754_nan l \/ forall x, In x l -> fle x m = true).
Definition fmin_coeff (l : list f64) (m : f64) : Prop := In m l /\ (In B754_nan l \/ forall x, In x l -> fle m x = true).
(** std::max of doubles (multivariate_gaussian.cc:66, 71). *)
Definition fmaxi (a b : f64) : f64 := if flt a b then b else a.
(** TOL_BASE (multivariate_gaussian.cc:60).  The literal 1e-15 is the double nearest to it, and
    so is this quotient of two integers that are doubles. *)
Definition tol_base : f64 := fdivide (of_int 1) (of_int (10 ^ 15)).

(** What an Eigen::SelfAdjointEigenSolver holds (multivariate_gaussian.hh:22,
    multivariate_gaussian.cc:33-40). *)
Record fsolution := FSolution { finfo : computation_info; fvalues : fvector; fvectors : fmatrix }.
(** Gaussian without its random number generator (multivariate_gaussian.hh:73-86).  The
    diagonal of sqrt_eigenvalues_mat_ is kept as a vector. *)
Record fgaussian := FGaussian {
  fdims : Z;
  fmu : fvector;
  fcov : fmatrix;
  feigenvalues : fvector;
  feigenvectors : fmatrix;
  fsqrt_eigenvalues : fvector }.

(** sanitize_eigenvalues (multivariate_gaussian.cc:59-72). *)
Definition fsanitize (c : fmatrix) (ev : fvector) (result : outcome fvector) : Prop :=
  match fcoeffs c, fvcoeffs ev with
  | [], _ | _, [] => result = UB
  | cs, evs => exists hi lo m, fmax_coeff cs hi /\ fmin_coeff cs lo /\ fmin_coeff evs m /\
      let tol := fmaxi (fmul (fsub hi lo) tol_base) tol_base in
      result = let* _ := reassert (flt (fneg tol) m) in Ok (FVector (fsize ev) (fun i => fmaxi (fcoef ev i) (of_int 0)))
  end.

(** The constructor (multivariate_gaussian.cc:19-45).  Solving a matrix of size zero violates
    a precondition of Eigen. *)
Definition fmake_gaussian (solve : fmatrix -> fsolution) (m : fvector) (c : fmatrix) (result : outcome fgaussian) : Prop :=
  let d := to_unsigned (fsize m) in
  if negb ((Z.of_nat (frows c) =? d)%Z && (Z.of_nat (fcols c) =? d)%Z) then result = Throw else
  exists symmetric, fis_approx (fcoeffs c) (fcoeffs (ftransposed c)) symmetric /\
  if negb symmetric then result = Throw else
  if (frows c =? 0)%nat then result = UB else
  match finfo (solve c) with
  | NumericalIssue => result = Throw
  | _ => exists r, fsanitize c (fvalues (solve c)) r /\
      result = let* ev := r in Ok (FGaussian d m c ev (fvectors (solve c)) (FVector (fsize ev) (fun i => fsqrt (fcoef ev i))))
  end.

(** samples (multivariate_gaussian.cc:47-50) from the numbers [iid] that iid_samples gives. *)
Definition fsamples (g : fgaussian) (iid : fmatrix) (result : fmatrix) : Prop :=
  frows result = frows iid /\ fcols result = frows (feigenvectors g) /\
  let coeffs i k := fmul (fentry iid i k) (fcoef (fsqrt_eigenvalues g) k) in
  forall i j, (i < frows iid)%nat -> (j < frows (feigenvectors g))%nat ->
  exists s, fsum_of (map (fun k => fmul (coeffs i k) (fentry (feigenvectors g) j k)) (seq 0 (fcols iid))) s /\
    fentry result i j = fadd s (fcoef (fmu g) j).
