(** What sample statistics and Gaussians should compute (C47, C48). *)
From Coq Require Import Reals Lra.
From Verif Require Import Cpp StatModel.
Local Open Scope R_scope.

(** f 0 + ... + f (n-1). *)
Fixpoint total (n : nat) (f : nat -> R) : R := match n with O => 0 | S n => total n f + f n end.

(** Equality of matrices and vectors: same size and same entries inside. *)
Definition same_matrix (a b : matrix) : Prop :=
  rows a = rows b /\ cols a = cols b /\ forall i j, (i < rows a)%nat -> (j < cols a)%nat -> entry a i j = entry b i j.
Definition same_vector (a b : vector) : Prop := size a = size b /\ forall i, (i < size a)%nat -> coef a i = coef b i.

(** The rows of [y] are [a x + b] for the rows [x] of [s]. *)
Definition affine_image (a : matrix) (b : nat -> R) (s y : matrix) : Prop :=
  rows y = rows s /\ cols y = rows a /\ cols s = cols a /\
  forall k i, (k < rows s)%nat -> (i < rows a)%nat -> entry y k i = total (cols a) (fun j => entry a i j * entry s k j) + b i.
(** [d = a c a^T]. *)
Definition transformed (a c d : matrix) : Prop :=
  rows d = rows a /\ cols d = rows a /\
  forall i j, (i < rows a)%nat -> (j < rows a)%nat ->
    entry d i j = total (cols a) (fun k => total (cols a) (fun l => entry a i k * entry c k l * entry a j l)).

(** The rows of [t] are those of [s] in some order. *)
Definition reordered (s t : matrix) : Prop :=
  rows t = rows s /\ cols t = cols s /\
  exists p : nat -> nat, (forall i, (i < rows s)%nat -> (p i < rows s)%nat) /\
    (forall i j, (i < rows s)%nat -> (j < rows s)%nat -> p i = p j -> i = j) /\
    forall i j, (i < rows s)%nat -> (j < cols s)%nat -> entry t i j = entry s (p i) j.

(** Sum of the squared distances of the samples from a point. *)
Definition spread (s : matrix) (c : nat -> R) : R :=
  total (rows s) (fun k => total (cols s) (fun j => (entry s k j - c j) * (entry s k j - c j))).
(** The unbiased covariance, by differences of pairs of samples. *)
Definition pairwise_covariance (s : matrix) (i j : nat) : R :=
  total (rows s) (fun k => total (rows s) (fun l => (entry s k i - entry s l i) * (entry s k j - entry s l j))) /
  (2 * INR (rows s) * (INR (rows s) - 1)).

(** The form y^T c y and the square of a vector. *)
Definition form (n : nat) (c : nat -> nat -> R) (y : nat -> R) : R :=
  total n (fun i => total n (fun j => y i * c i j * y j)).
Definition square (n : nat) (y : nat -> R) : R := total n (fun i => y i * y i).

(** The symmetric matrix that has the entries of [c] on and below the diagonal. *)
Definition lower (c : matrix) (i j : nat) : R := entry c (Nat.max i j) (Nat.min i j).
(** [values] and the columns of [vectors] are an orthonormal system of eigenvectors of the
    n x n matrix [c]. *)
Definition unit_entry (i j : nat) : R := if (i =? j)%nat then 1 else 0.
Definition decomposes (n : nat) (c : nat -> nat -> R) (s : solution) : Prop :=
  size (values s) = n /\ rows (vectors s) = n /\ cols (vectors s) = n /\
  (forall i j, (i < n)%nat -> (j < n)%nat -> total n (fun k => c i k * entry (vectors s) k j) = coef (values s) j * entry (vectors s) i j) /\
  (forall i j, (i < n)%nat -> (j < n)%nat -> total n (fun k => entry (vectors s) k i * entry (vectors s) k j) = unit_entry i j) /\
  (forall i j, (i < n)%nat -> (j < n)%nat -> total n (fun k => entry (vectors s) i k * entry (vectors s) j k) = unit_entry i j).

(** Sum of the squares of all entries of an n x n matrix. *)
Definition squares (n : nat) (c : nat -> nat -> R) : R := total n (fun i => total n (fun j => c i j * c i j)).
(** Symmetric to 1e-12 of the size of the matrix. *)
Definition near_symmetric (c : matrix) : Prop :=
  squares (rows c) (fun i j => entry c i j - entry c j i) <= (/ 10^12)^2 * squares (rows c) (entry c).
(** The tolerance for negative eigenvalues: 1e-15 of the range of the entries, and at least
    1e-15. *)
Definition tolerance (c : matrix) (t : R) : Prop :=
  exists i j k l, (i < rows c)%nat /\ (j < cols c)%nat /\ (k < rows c)%nat /\ (l < cols c)%nat /\
    (forall p q, (p < rows c)%nat -> (q < cols c)%nat -> entry c i j <= entry c p q <= entry c k l) /\
    ((t = / 10^15 /\ entry c k l - entry c i j <= 1) \/ (t = (entry c k l - entry c i j) / 10^15 /\ 1 <= entry c k l - entry c i j)).

(** The matrix that maps draws to samples, times its transpose. *)
Definition sampling_square {G} (n : nat) (g : gaussian G) (i j : nat) : R :=
  total n (fun k => (entry (eigenvectors g) i k * coef (sqrt_eigenvalues_mat g) k) * (entry (eigenvectors g) j k * coef (sqrt_eigenvalues_mat g) k)).

(** The k-th number a generator draws for one call, counted from zero. *)
Fixpoint after_draws (G : generator) (k : nat) (s : normal G) : normal G :=
  match k with O => s | S k => snd (draw G (after_draws G k s)) end.
Definition drawn (G : generator) (r : rng G) (k : nat) : R := fst (draw G (after_draws G k (start G r))).
(** The covariance has as many rows and columns as the mean has entries. *)
Definition well_sized (m : vector) (c : matrix) : Prop := rows c = size m /\ cols c = size m.
(** The matrix of draws behind n samples, column by column. *)
Definition iid_of {G} (g : gaussian G) (n : nat) : matrix :=
  Matrix n (Z.to_nat (dims g)) (fun i j => drawn G (state g) (j * n + i)).
(** What maps draws to samples: eigenvectors times roots of eigenvalues. *)
Definition sampling_matrix {G} (g : gaussian G) : matrix :=
  Matrix (Z.to_nat (dims g)) (Z.to_nat (dims g)) (fun i k => entry (eigenvectors g) i k * coef (sqrt_eigenvalues_mat g) k).
