(** Gaussians in double precision: C88. *)
From Coq Require Import Reals ZArith List.
From Flocq Require Import Core BinarySingleNaN.
From Verif Require Import Cpp FloatModel FloatSpec NrmSpec StatModel StatSpec FstModel FstSpec GsnModel GsnSpec GsnProofs GsnProofs2 GsnProofs3 GsnProofs4.
Local Open Scope R_scope.

(** ** C88 *)
(** The constructor always has a result.  It throws if the sizes do not agree, and reaches
    undefined behaviour just for an empty mean. *)
Theorem c88_sizes : (forall solve m c, exists r, fmake_gaussian solve m c r) /\ forall solve n m c r, fmake_gaussian solve m c r -> fsize m = n -> (Z.of_nat n < 2 ^ 32)%Z ->
  (~ (frows c = n /\ fcols c = n) -> r = Throw) /\ (frows c = n /\ fcols c = n -> (n = 0%nat -> r = UB) /\ ((0 < n)%nat -> fsize (fvalues (solve c)) = n -> r <> UB)).
Proof. exact (conj made_exists sizes). Qed.
Print Assumptions c88_sizes.

(** It throws if a covariance of ordinary entries and up to 1024 dimensions is less symmetric
    than one part in 10^12. *)
Theorem c88_rejects_asymmetric : forall solve n m c r, fmake_gaussian solve m c r -> sized n m c -> (n <= 1024)%nat -> all_finite c -> no_bigger (2 ^ 480) c -> / 2 ^ 700 <= weight c ->
  (1 + / 10 ^ 8) * ((/ 10 ^ 12) ^ 2 * weight c) <= asymmetry c -> r = Throw.
Proof. exact rejects_asymmetric. Qed.
Print Assumptions c88_rejects_asymmetric.
Example c88_rejects_asymmetric_case : let c := two_by_two (of_int 2) (of_int 1) (of_int 2) (of_int 2) in sized 2 (whole 5 7) c /\ all_finite c /\ no_bigger (2 ^ 480) c /\ weight c = 13 /\ asymmetry c = 2 /\
  (1 + / 10 ^ 8) * ((/ 10 ^ 12) ^ 2 * 13) <= 2 /\ / 2 ^ 700 <= 13.
Proof. exact asymmetric_case. Qed.

(** It throws if an entry is NaN, if an entry on the diagonal is infinite, and if two mirrored
    entries are infinite with the same sign. *)
Theorem c88_rejects_nan : forall solve n m c r i j, fmake_gaussian solve m c r -> sized n m c -> (i < n)%nat -> (j < n)%nat ->
  fentry c i j = B754_nan \/ (exists b, fentry c i j = B754_infinity b /\ fentry c j i = B754_infinity b) -> r = Throw.
Proof. exact rejects_nan. Qed.
Print Assumptions c88_rejects_nan.
Example c88_rejects_nan_case : let c := two_by_two (of_int 2) (of_int 1) (of_int 1) (B754_infinity false) in sized 2 (whole 5 7) c /\ fentry c 1 1 = B754_infinity false.
Proof. repeat split. Qed.

(** It throws if the solver reports a numerical issue, or an eigenvalue that is below minus the
    tolerance by four units in the last place. *)
Theorem c88_rejects_solution : (forall solve n m c r, fmake_gaussian solve m c r -> sized n m c -> (0 < n)%nat -> finfo (solve c) = NumericalIssue -> r = Throw) /\
  forall solve n m c r t k, fmake_gaussian solve m c r -> sized n m c -> solved n (solve c) -> all_finite c -> no_bigger (2 ^ 1000) c -> StatSpec.tolerance (holds c) t -> (k < n)%nat ->
  val (fcoef (fvalues (solve c)) k) <= - ((1 + 4 * u) * t) -> r = Throw.
Proof. exact (conj rejects_issue rejects_negative). Qed.
Print Assumptions c88_rejects_solution.

(** It makes a Gaussian if the covariance is finite, and symmetric up to 2^-538 or to one part
    in 10^12 or has an entry of 2^512 or more, and the eigenvalues are not negative or above
    minus the tolerance by four units in the last place. *)
Theorem c88_accepts : forall solve n m c r, fmake_gaussian solve m c r -> sized n m c -> (0 < n)%nat -> solved n (solve c) -> all_finite c ->
  (forall i j, (i < n)%nat -> (j < n)%nat -> Rabs (val (fentry c i j) - val (fentry c j i)) <= / 2 ^ 538) \/
  (exists i j, (i < n)%nat /\ (j < n)%nat /\ 2 ^ 512 <= Rabs (val (fentry c i j))) \/
  ((n <= 1024)%nat /\ no_bigger (2 ^ 480) c /\ / 2 ^ 700 <= weight c /\ asymmetry c <= (1 - / 10 ^ 8) * ((/ 10 ^ 12) ^ 2 * weight c)) ->
  (forall k, (k < n)%nat -> 0 <= val (fcoef (fvalues (solve c)) k)) \/
  (no_bigger (2 ^ 1000) c /\ exists t, StatSpec.tolerance (holds c) t /\ forall k, (k < n)%nat -> - ((1 - 4 * u) * t) < val (fcoef (fvalues (solve c)) k)) ->
  exists g, r = Ok g.
Proof. exact accepts. Qed.
Print Assumptions c88_accepts.
Example c88_case : sized 2 (whole 5 7) ordinary /\ solved 2 ordinary_solution /\ all_finite ordinary /\ no_bigger (2 ^ 480) ordinary /\ no_bigger (2 ^ 1000) ordinary /\ weight ordinary = 10 /\ asymmetry ordinary = 0 /\
  StatSpec.tolerance (holds ordinary) (/ 10 ^ 15) /\ (forall k, (k < 2)%nat -> 0 <= val (fcoef (fvalues ordinary_solution) k)) /\ exists g, fmake_gaussian (fun _ => ordinary_solution) (whole 5 7) ordinary (Ok g).
Proof. exact ordinary_case. Qed.

(** It also makes one if an entry is infinite and its mirror image is not the same infinity,
    whatever finite eigenvalues the solver reports. *)
Theorem c88_accepts_infinite : forall solve n m c r, fmake_gaussian solve m c r -> sized n m c -> solved n (solve c) ->
  (forall i j, (i < n)%nat -> (j < n)%nat -> fentry c i j <> B754_nan /\ forall b, ~ (fentry c i j = B754_infinity b /\ fentry c j i = B754_infinity b)) ->
  (exists i j b, (i < n)%nat /\ (j < n)%nat /\ fentry c i j = B754_infinity b) -> exists g, r = Ok g.
Proof. exact accepts_infinite. Qed.
Print Assumptions c88_accepts_infinite.

(** So covariances that are not symmetric are accepted: one with rows (1, infinity) and (0, 1),
    and one of finite entries that equals minus its transpose. *)
Theorem c88_symmetric_refuted : exists c c', sized 2 (whole 0 0) c /\ sized 2 (whole 0 0) c' /\
  (fentry c 0 1 = B754_infinity false /\ fentry c 1 0 = of_int 0 /\ forall solve r, solved 2 (solve c) -> fmake_gaussian solve (whole 0 0) c r -> exists g, r = Ok g) /\
  (all_finite c' /\ asymmetry c' = 4 * weight c' /\ 0 < weight c' /\
   forall solve r, solved 2 (solve c') -> (forall k, (k < 2)%nat -> 0 <= val (fcoef (fvalues (solve c')) k)) -> fmake_gaussian solve (whole 0 0) c' r -> exists g, r = Ok g).
Proof. exact (ex_intro _ lopsided (ex_intro _ twisted (conj (proj1 accepted_infinite) (conj (proj1 accepted_huge) (conj (proj2 accepted_infinite) (proj2 accepted_huge)))))). Qed.
Print Assumptions c88_symmetric_refuted.
(** And a diagonal matrix with the entry -2^1023 is accepted, whatever finite eigenvalues the
    solver reports. *)
Theorem c88_semi_definite_refuted : exists c, sized 2 (whole 0 0) c /\ all_finite c /\ (forall i j, fentry c i j = fentry c j i) /\ val (fentry c 1 1) = - 2 ^ 1023 /\
  forall solve r, solved 2 (solve c) -> fmake_gaussian solve (whole 0 0) c r -> exists g, r = Ok g.
Proof. exact (ex_intro _ indefinite accepted_indefinite). Qed.
Print Assumptions c88_semi_definite_refuted.

(** What a Gaussian holds: the mean, the covariance, the eigenvectors of the solver, its
    eigenvalues with the negative ones replaced by zero, and their roots to one unit in the
    last place. *)
Theorem c88_holds : forall solve n m c g, fmake_gaussian solve m c (Ok g) -> sized n m c -> (0 < n)%nat -> solved n (solve c) ->
  fdims g = Z.of_nat n /\ fmu g = m /\ fcov g = c /\ feigenvectors g = fvectors (solve c) /\ fsize (feigenvalues g) = n /\ fsize (fsqrt_eigenvalues g) = n /\
  forall k, (k < n)%nat -> finite (fcoef (feigenvalues g) k) /\ val (fcoef (feigenvalues g) k) = Rmax (val (fcoef (fvalues (solve c)) k)) 0 /\
    finite (fcoef (fsqrt_eigenvalues g) k) /\ 0 <= val (fcoef (fsqrt_eigenvalues g) k) /\
    Rabs (val (fcoef (fsqrt_eigenvalues g) k) - sqrt (val (fcoef (feigenvalues g) k))) <= u * sqrt (val (fcoef (feigenvalues g) k)).
Proof. exact made. Qed.
Print Assumptions c88_holds.

(** If the solver's decomposition gives the covariance up to d, independent standard normal
    draws give samples of that covariance up to d and the rounding of the roots and the
    tolerance. *)
Theorem c88_reproduces : forall solve n m c g t d i j, fmake_gaussian solve m c (Ok g) -> sized n m c -> solved n (solve c) -> all_finite c -> no_bigger (2 ^ 1000) c -> StatSpec.tolerance (holds c) t ->
  let v p q := val (fentry (fvectors (solve c)) p q) in let e k := val (fcoef (fvalues (solve c)) k) in (i < n)%nat -> (j < n)%nat ->
  Rabs (total n (fun k => v i k * e k * v j k) - val (fentry c i j)) <= d ->
  Rabs (given_covariance n (fun p q => val (fentry (feigenvectors g) p q)) (fun k => val (fcoef (fsqrt_eigenvalues g) k)) i j - val (fentry c i j)) <=
  d + total n (fun k => Rabs (v i k * v j k) * (3 * u * Rabs (e k) + (1 + 4 * u) * t)).
Proof. exact reproduces. Qed.
Print Assumptions c88_reproduces.

(** Samples always exist, and each entry is the mean plus the draws times roots of eigenvalues
    times eigenvectors, up to n + 6 units in the last place of the products and the mean. *)
Theorem c88_samples : (forall g z, exists y, fsamples g z y) /\
  forall solve n m c g z y i j, fmake_gaussian solve m c (Ok g) -> sized n m c -> solved n (solve c) -> frows (fvectors (solve c)) = n -> fcols z = n -> (n <= 2 ^ 20)%nat -> fsamples g z y ->
  (i < frows z)%nat -> (j < n)%nat -> (forall k, (k < n)%nat -> finite (fentry z i k) /\ Rabs (val (fentry z i k)) <= 2 ^ 10) ->
  (forall k, (k < n)%nat -> finite (fentry (fvectors (solve c)) j k) /\ Rabs (val (fentry (fvectors (solve c)) j k)) <= 2) -> finite (fcoef m j) -> Rabs (val (fcoef m j)) <= 2 ^ 1000 ->
  let w k := val (fentry z i k) * sqrt (Rmax (val (fcoef (fvalues (solve c)) k)) 0) * val (fentry (fvectors (solve c)) j k) in
  finite (fentry y i j) /\ Rabs (val (fentry y i j) - (total n w + val (fcoef m j))) <= (INR n + 6) * u * (total n (fun k => Rabs (w k)) + Rabs (val (fcoef m j))) + 6 * INR n * tiny.
Proof. exact (conj samples_exist samples_of). Qed.
Print Assumptions c88_samples.
Example c88_samples_case : let z := two_by_two (of_int 1) (of_int 2) (of_int (-1)) (of_int 3) in frows (fvectors ordinary_solution) = 2%nat /\ fcols z = 2%nat /\
  (forall i k, (i < 2)%nat -> (k < 2)%nat -> finite (fentry z i k) /\ Rabs (val (fentry z i k)) <= 2 ^ 10) /\
  (forall j k, (j < 2)%nat -> (k < 2)%nat -> finite (fentry (fvectors ordinary_solution) j k) /\ Rabs (val (fentry (fvectors ordinary_solution) j k)) <= 2) /\
  (forall j, (j < 2)%nat -> finite (fcoef (whole 5 7) j) /\ Rabs (val (fcoef (whole 5 7) j)) <= 2 ^ 1000).
Proof. exact samples_case. Qed.
