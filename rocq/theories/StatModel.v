(** Sample statistics and multivariate Gaussians: resim/math/sample_statistics.hh and
    resim/math/multivariate_gaussian.{hh,cc}, over the reals instead of binary64.
    Eigen's eigenvalue solver and the standard library's normal distribution are
    parameters. *)
From Coq Require Import Reals Lra.
From Verif Require Import Cpp.
Local Open Scope R_scope.

(** Eigen::MatrixXd; only the entries inside the bounds matter (sample_statistics.hh:20,
    multivariate_gaussian.hh:20). *)
Record matrix := Matrix { rows : nat; cols : nat; entry : nat -> nat -> R }.
(** Eigen::VectorXd (sample_statistics.hh:20, multivariate_gaussian.hh:19). *)
Record vector := Vector { size : nat; coef : nat -> R }.

(** Sums as computed by Eigen, in some order: sum(), products (sample_statistics.hh:21,
    37). *)
Definition sum_to (n : nat) (f : nat -> R) : R := fold_right Rplus 0 (map f (seq 0 n)).

(** Conversion of an Eigen::Index to unsigned int (sample_statistics.hh:30,
    multivariate_gaussian.cc:20). *)
Definition to_unsigned (n : nat) : Z := (Z.of_nat n mod 2^32)%Z.

(** transpose() and adjoint() (sample_statistics.hh:37, multivariate_gaussian.cc:32). *)
Definition transpose (a : matrix) : matrix := Matrix (cols a) (rows a) (fun i j => entry a j i).
(** Matrix product (sample_statistics.hh:37, multivariate_gaussian.cc:48-49).  That the
    inner sizes agree is Eigen's precondition; it holds where this is used. *)
Definition product (a b : matrix) : matrix :=
  Matrix (rows a) (cols b) (fun i j => sum_to (cols a) (fun k => entry a i k * entry b k j)).
(** Product with a diagonal matrix on the right (multivariate_gaussian.cc:48). *)
Definition product_diagonal (a : matrix) (d : nat -> R) : matrix :=
  Matrix (rows a) (cols a) (fun i j => entry a i j * d j).
(** rowwise() + and rowwise() - (sample_statistics.hh:35, multivariate_gaussian.cc:49). *)
Definition rowwise_add (a : matrix) (v : nat -> R) : matrix := Matrix (rows a) (cols a) (fun i j => entry a i j + v j).
Definition rowwise_sub (a : matrix) (v : nat -> R) : matrix := Matrix (rows a) (cols a) (fun i j => entry a i j - v j).

(** colwise().mean() (sample_statistics.hh:21, 35).  Reducing an empty column violates
    Eigen's precondition (DenseBase::redux). *)
Definition colwise_mean (a : matrix) : outcome (nat -> R) :=
  if ((rows a =? 0)%nat && negb (cols a =? 0)%nat)%bool then UB
  else Ok (fun j => sum_to (rows a) (fun i => entry a i j) / INR (rows a)).

(** mean (sample_statistics.hh:20-22). *)
Definition mean (samples : matrix) : outcome vector :=
  let* m := colwise_mean samples in Ok (Vector (cols samples) m).

(** covariance (sample_statistics.hh:29-39). *)
Definition covariance (samples : matrix) : outcome matrix :=
  let sample_count := to_unsigned (rows samples) in
  let* _ := reassert (1 <? sample_count)%Z in
  let* m := colwise_mean samples in
  let zero_mean := rowwise_sub samples m in
  let c := product (transpose zero_mean) zero_mean in
  Ok (Matrix (rows c) (cols c) (fun i j => entry c i j / IZR (sample_count - 1))).

(** Sum of squares of all entries, as in isApprox (multivariate_gaussian.cc:32). *)
Definition square_sum (r c : nat) (f : nat -> nat -> R) : R := sum_to r (fun i => sum_to c (fun j => f i j * f i j)).
(** a.isApprox(b) for matrices of the same size: |a - b|^2 <= 1e-24 min(|a|^2, |b|^2)
    (multivariate_gaussian.cc:32; Eigen's dummy_precision is 1e-12). *)
Definition is_approx (a b : matrix) : bool :=
  if Rle_dec (square_sum (rows a) (cols a) (fun i j => entry a i j - entry b i j))
       (/ 10^12 * / 10^12 * Rmin (square_sum (rows a) (cols a) (entry a)) (square_sum (rows a) (cols a) (entry b)))
  then true else false.

(** maxCoeff() and minCoeff() of a matrix or vector that is not empty; empty ones violate
    Eigen's precondition (multivariate_gaussian.cc:66, 69). *)
Definition max_of (x : R) (l : list R) : R := fold_left Rmax l x.
Definition min_of (x : R) (l : list R) : R := fold_left Rmin l x.
Definition reduce_coeffs (f : R -> list R -> R) (l : list R) : outcome R :=
  match l with [] => UB | x :: l => Ok (f x l) end.
Definition coeffs (a : matrix) : list R := flat_map (fun j => map (fun i => entry a i j) (seq 0 (rows a))) (seq 0 (cols a)).
Definition vcoeffs (v : vector) : list R := map (coef v) (seq 0 (size v)).

(** Eigen::ComputationInfo (multivariate_gaussian.cc:34). *)
Inductive computation_info := Success | NumericalIssue | NoConvergence | InvalidInput.
(** What an Eigen::SelfAdjointEigenSolver holds after its constructor has run
    (multivariate_gaussian.hh:22, multivariate_gaussian.cc:33-40). *)
Record solution := Solution { info : computation_info; values : vector; vectors : matrix }.

(** std::mt19937 seeded with SEED, std::normal_distribution over it, drawing one number and
    letting the distribution go, which drops what it has stored
    (multivariate_gaussian.hh:89-90, multivariate_gaussian.cc:53-55). *)
Record generator := Generator {
  rng : Type;
  normal : Type;
  seeded : rng;
  start : rng -> normal;
  draw : normal -> R * normal;
  stop : normal -> rng }.

(** Gaussian (multivariate_gaussian.hh:73-90).  The diagonal of sqrt_eigenvalues_mat_ is
    kept as a vector. *)
Record gaussian (G : generator) := Gaussian {
  dims : Z;
  mu : vector;
  cov : matrix;
  eigenvalues : vector;
  eigenvectors : matrix;
  sqrt_eigenvalues_mat : vector;
  state : rng G }.
Arguments Gaussian {G}. Arguments dims {G}. Arguments mu {G}. Arguments cov {G}. Arguments eigenvalues {G}.
Arguments eigenvectors {G}. Arguments sqrt_eigenvalues_mat {G}. Arguments state {G}.

(** sanitize_eigenvalues (multivariate_gaussian.cc:59-72). *)
Definition sanitize_eigenvalues (c : matrix) (ev : vector) : outcome vector :=
  let* hi := reduce_coeffs max_of (coeffs c) in
  let* lo := reduce_coeffs min_of (coeffs c) in
  let tol := Rmax ((hi - lo) * / 10^15) (/ 10^15) in
  let* m := reduce_coeffs min_of (vcoeffs ev) in
  let* _ := reassert (if Rlt_dec (- tol) m then true else false) in
  Ok (Vector (size ev) (fun i => Rmax (coef ev i) 0)).

(** The constructor (multivariate_gaussian.cc:19-45).  Solving a matrix of size zero
    violates a precondition of Eigen (it takes maxCoeff). *)
Definition make_gaussian (G : generator) (solve : matrix -> solution) (m : vector) (c : matrix) : outcome (gaussian G) :=
  let d := to_unsigned (size m) in
  let* _ := reassert ((Z.of_nat (rows c) =? d)%Z && (Z.of_nat (cols c) =? d)%Z) in
  let* _ := reassert (is_approx c (transpose c)) in
  if (rows c =? 0)%nat then UB else
  let solver := solve c in
  let* _ := reassert (match info solver with NumericalIssue => false | _ => true end) in
  let* ev := sanitize_eigenvalues c (values solver) in
  Ok (Gaussian d m c ev (vectors solver) (Vector (size ev) (fun i => sqrt (coef ev i))) (seeded G)).

(** Drawing k numbers one after the other. *)
Fixpoint draws (G : generator) (k : nat) (s : normal G) : list R * normal G :=
  match k with
  | O => ([], s)
  | S k => let (x, s) := draw G s in let (l, s) := draws G k s in (x :: l, s)
  end.

(** iid_samples (multivariate_gaussian.cc:52-57): NullaryExpr fills the matrix in storage
    order, which is column by column. *)
Definition iid_samples {G} (g : gaussian G) (n : nat) : matrix * gaussian G :=
  let d := Z.to_nat (dims g) in
  let (l, s) := draws G (n * d) (start G (state g)) in
  (Matrix n d (fun i j => nth (j * n + i) l 0),
   Gaussian (dims g) (mu g) (cov g) (eigenvalues g) (eigenvectors g) (sqrt_eigenvalues_mat g) (stop G s)).

(** samples (multivariate_gaussian.cc:47-50). *)
Definition samples {G} (g : gaussian G) (n : nat) : matrix * gaussian G :=
  let (iid, g) := iid_samples g n in
  let coeffs := product_diagonal iid (coef (sqrt_eigenvalues_mat g)) in
  (rowwise_add (product coeffs (transpose (eigenvectors g))) (coef (mu g)), g).

(** sample (multivariate_gaussian.hh:54). *)
Definition sample {G} (g : gaussian G) : vector * gaussian G :=
  let (m, g) := samples g 1 in (Vector (cols m) (entry m 0%nat), g).
