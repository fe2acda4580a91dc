(** Sample statistics and multivariate Gaussians: C47, C48. *)
From Coq Require Import Reals Lra.
From Verif Require Import Cpp StatModel StatSpec StatProofs.
Local Open Scope R_scope.

(** ** C47 *)
(** The mean is the point with the least sum of squared distances, and the only one. *)
Theorem c47_mean_centre : forall s m, rows s <> O -> mean s = Ok m -> (forall c, spread s (coef m) <= spread s c) /\
  (forall c, spread s c = spread s (coef m) -> forall j, (j < cols s)%nat -> c j = coef m j).
Proof. exact mean_centre. Qed.
Print Assumptions c47_mean_centre.
Theorem c47_mean_defined : forall s, (((0 < rows s)%nat \/ cols s = O) -> exists m, mean s = Ok m /\ size m = cols s) /\ (mean s = UB <-> rows s = O /\ cols s <> O).
Proof. exact mean_defined. Qed.
Print Assumptions c47_mean_defined.
Theorem c47_mean_affine : forall a b s y m, rows s <> O -> affine_image a b s y -> mean s = Ok m -> exists m', mean y = Ok m' /\ size m' = rows a /\
  forall i, (i < rows a)%nat -> coef m' i = total (cols a) (fun j => entry a i j * coef m j) + b i.
Proof. exact mean_affine. Qed.
Print Assumptions c47_mean_affine.
(** Fewer than two samples throw; otherwise the covariance is given by the differences of
    pairs of samples.  The number of samples must fit an unsigned int. *)
Theorem c47_covariance : forall s, (Z.of_nat (rows s) < 2^32)%Z ->
  (covariance s = Throw <-> (rows s < 2)%nat) /\
  ((2 <= rows s)%nat -> exists c, covariance s = Ok c /\ rows c = cols s /\ cols c = cols s /\ forall i j, entry c i j = pairwise_covariance s i j).
Proof. exact covariance_spec. Qed.
Print Assumptions c47_covariance.
(** For any number of samples: symmetric, positive semi-definite, and zero exactly in
    directions in which all samples agree. *)
Theorem c47_symmetric : forall s c, covariance s = Ok c -> forall i j, entry c i j = entry c j i.
Proof. exact covariance_symmetric. Qed.
Print Assumptions c47_symmetric.
Theorem c47_semi_definite : forall s c y, covariance s = Ok c ->
  0 <= form (cols s) (entry c) y /\
  (form (cols s) (entry c) y = 0 <-> forall k l, (k < rows s)%nat -> (l < rows s)%nat ->
     total (cols s) (fun j => y j * entry s k j) = total (cols s) (fun j => y j * entry s l j)).
Proof. exact covariance_psd. Qed.
Print Assumptions c47_semi_definite.
Theorem c47_correlation : forall s c i j, covariance s = Ok c -> (i < cols s)%nat -> (j < cols s)%nat -> 0 <= entry c i i /\ (entry c i j)^2 <= entry c i i * entry c j j.
Proof. exact covariance_cauchy. Qed.
Print Assumptions c47_correlation.
(** Affine maps, among them shifting and scaling, and the order of the samples. *)
Theorem c47_covariance_affine : forall a b s y c, affine_image a b s y -> covariance s = Ok c -> exists d, covariance y = Ok d /\ transformed a c d.
Proof. exact covariance_affine. Qed.
Print Assumptions c47_covariance_affine.
Theorem c47_mean_order : forall s t m, rows s <> O -> reordered s t -> mean s = Ok m -> exists m', mean t = Ok m' /\ same_vector m m'.
Proof. exact mean_reordered. Qed.
Print Assumptions c47_mean_order.
Theorem c47_covariance_order : forall s t c, reordered s t -> covariance s = Ok c -> exists d, covariance t = Ok d /\ same_matrix c d.
Proof. exact covariance_reordered. Qed.
Print Assumptions c47_covariance_order.
(** More samples than an unsigned int can count are miscounted: 2^32 samples throw, and
    2^32 + 2 samples give a covariance that is 2^32 + 1 times too big. *)
Theorem c47_many_refuted : exists s, Z.of_nat (rows s) = (2^32)%Z /\ covariance s = Throw.
Proof. exists (Matrix (Z.to_nat (2^32)) 1 (fun _ _ => 0)). split; [cbn [rows]; rewrite Z2Nat.id; [reflexivity|discriminate]|]. apply covariance_cases. cbn [rows].
  unfold to_unsigned. rewrite Z2Nat.id by discriminate. discriminate. Qed.
Print Assumptions c47_many_refuted.
Theorem c47_divisor_refuted : exists s c, Z.of_nat (rows s) = (2^32 + 2)%Z /\ covariance s = Ok c /\ 0 < entry c 0 0 /\ entry c 0 0 = (2^32 + 1) * pairwise_covariance s 0 0.
Proof.
  set (s := Matrix (Z.to_nat (2^32 + 2)) 1 (fun i _ => if (i =? 0)%nat then 1 else 0)).
  assert (R : Z.of_nat (rows s) = (2^32 + 2)%Z) by (unfold s; cbn [rows]; apply Z2Nat.id; discriminate).
  assert (U : to_unsigned (rows s) = 2%Z) by (unfold to_unsigned; rewrite R; reflexivity).
  destruct (covariance_cases s) as [_ C]. destruct C as (c & E & _ & _ & X); [rewrite U; reflexivity|]. exists s, c. split; [exact R|]. split; [exact E|].
  split.
  - destruct (covariance_psd s c (fun _ => 1) E) as [P Z]. unfold form in P, Z. cbn [cols s total] in P, Z.
    destruct (Rlt_dec 0 (entry c 0 0)) as [L|L]; [exact L|]. exfalso.
    assert (F : 0 + (0 + 1 * entry c 0 0 * 1) = 0) by lra. apply (proj1 Z) with (k := O) (l := 1%nat) in F; [|apply Nat2Z.inj_lt; rewrite R; reflexivity|apply Nat2Z.inj_lt; rewrite R; reflexivity].
    cbn in F. lra.
  - rewrite X, U, INR_IZR_INZ, R. change (2 - 1)%Z with 1%Z. replace (IZR (2 ^ 32 + 2) - 1) with (2^32 + 1). { field. }
    change (2^32 + 2)%Z with 4294967298%Z. lra.
Qed.
Print Assumptions c47_divisor_refuted.
(** Three points in the plane. *)
Definition st_points : matrix := Matrix 3 2 (fun i j => match i, j with 1%nat, 0%nat => 3 | 2%nat, 1%nat => 6 | _, _ => 0 end).
Example c47_example : (exists m, mean st_points = Ok m /\ coef m 0 = 1 /\ coef m 1 = 2) /\
  (exists c, covariance st_points = Ok c /\ entry c 0 0 = 3 /\ entry c 0 1 = - 3 /\ entry c 1 0 = - 3 /\ entry c 1 1 = 12) /\
  affine_image (Matrix 1 2 (fun _ j => if (j =? 0)%nat then 1 else -1)) (fun _ => 5) st_points (Matrix 3 1 (fun i _ => match i with 0%nat => 5 | 1%nat => 8 | _ => -1 end)) /\
  reordered st_points (Matrix 3 2 (fun i j => match i, j with 1%nat, 0%nat => 3 | 0%nat, 1%nat => 6 | _, _ => 0 end)) /\
  covariance (Matrix 1 2 (fun _ _ => 0)) = Throw /\ mean (Matrix 0 2 (fun _ _ => 0)) = UB.
Proof.
  split; [eexists; split; [reflexivity|]; split; cbn; field|]. split.
  - destruct (covariance_spec st_points) as [_ C]; [reflexivity|]. destruct C as (c & E & _ & _ & X); [cbn; lia|]. exists c. split; [exact E|].
    rewrite !X. unfold pairwise_covariance. cbn [rows st_points total entry INR]. repeat split; field.
  - split.
    + split; [reflexivity|]. split; [reflexivity|]. split; [reflexivity|]. intros [|[|[|k]]] [|i] Hk Hi; cbn in *; try lia; ring.
    + split.
      * split; [reflexivity|]. split; [reflexivity|]. exists (fun i => (2 - i)%nat). cbn [rows cols st_points]. split; [intros; lia|]. split; [intros; lia|].
        intros [|[|[|i]]] [|[|j]] Hi Hj; try lia; reflexivity.
      * split; reflexivity.
Qed.

(** ** C48 *)
(** Which parameters are accepted.  Sizes that do not agree throw and size zero is undefined
    behaviour; otherwise, if the solver's answer is an orthonormal system of eigenvectors of
    the matrix that has the lower half of the covariance on both sides, the covariance is
    accepted exactly if it is symmetric up to 1e-12 and its form is above -tolerance. *)
Theorem c48_accepts : forall G solve m c, (Z.of_nat (size m) < 2^32)%Z ->
  (~ well_sized m c -> make_gaussian G solve m c = Throw) /\
  (well_sized m c -> size m = O -> make_gaussian G solve m c = UB) /\
  (forall t, well_sized m c -> (0 < size m)%nat -> info (solve c) <> NumericalIssue -> decomposes (size m) (lower c) (solve c) -> tolerance c t ->
    let good := near_symmetric c /\ forall x, 0 < square (size m) x -> - t * square (size m) x < form (size m) (lower c) x in
    (good -> exists g, make_gaussian G solve m c = Ok g) /\ (~ good -> make_gaussian G solve m c = Throw)).
Proof. exact construction. Qed.
Print Assumptions c48_accepts.
Theorem c48_numerical_issue : forall G solve m c, (Z.of_nat (size m) < 2^32)%Z -> info (solve c) = NumericalIssue -> (0 < size m)%nat -> make_gaussian G solve m c = Throw.
Proof. exact numerical_issue. Qed.
Print Assumptions c48_numerical_issue.
(** What the getters return. *)
Theorem c48_holds : forall G solve m c t g, (Z.of_nat (size m) < 2^32)%Z -> well_sized m c -> (0 < size m)%nat -> info (solve c) <> NumericalIssue ->
  decomposes (size m) (lower c) (solve c) -> tolerance c t -> make_gaussian G solve m c = Ok g ->
  dims g = Z.of_nat (size m) /\ mu g = m /\ cov g = c /\ eigenvectors g = vectors (solve c) /\ state g = seeded G /\ size (eigenvalues g) = size m /\
  (forall i, (i < size m)%nat -> 0 <= coef (eigenvalues g) i /\ - t < coef (values (solve c)) i /\
     (0 <= coef (values (solve c)) i -> coef (eigenvalues g) i = coef (values (solve c)) i) /\ (coef (values (solve c)) i <= 0 -> coef (eigenvalues g) i = 0) /\
     0 <= coef (sqrt_eigenvalues_mat g) i /\ coef (sqrt_eigenvalues_mat g) i * coef (sqrt_eigenvalues_mat g) i = coef (eigenvalues g) i).
Proof. exact held. Qed.
Print Assumptions c48_holds.
(** The matrix samples are made with reproduces the covariance: exactly if that is
    symmetric positive semi-definite, and within the tolerances otherwise. *)
Theorem c48_reproduces : forall G solve m c t g, (Z.of_nat (size m) < 2^32)%Z -> well_sized m c -> (0 < size m)%nat -> info (solve c) <> NumericalIssue ->
  decomposes (size m) (lower c) (solve c) -> tolerance c t -> make_gaussian G solve m c = Ok g ->
  (forall i j, (i < size m)%nat -> (j < size m)%nat ->
     ((forall x, 0 <= form (size m) (lower c) x) -> sampling_square (size m) g i j = lower c i j) /\
     ((forall x, 0 <= form (size m) (lower c) x) -> entry c i j = entry c j i -> sampling_square (size m) g i j = entry c i j) /\
     Rabs (sampling_square (size m) g i j - entry c i j) <= t + / 10^12 * sqrt (squares (size m) (entry c))) /\
  (forall x, 0 <= form (size m) (sampling_square (size m) g) x /\
     form (size m) (lower c) x <= form (size m) (sampling_square (size m) g) x <= form (size m) (lower c) x + t * square (size m) x).
Proof. exact reproduces. Qed.
Print Assumptions c48_reproduces.
(** Samples are affine images of draws; n samples use n times the dimension draws, each
    once, and change nothing but the state of the generator. *)
Theorem c48_samples : forall G solve m c g n y g', (Z.of_nat (size m) < 2^32)%Z -> rows (vectors (solve c)) = size m -> make_gaussian G solve m c = Ok g ->
  samples g n = (y, g') ->
  affine_image (sampling_matrix g) (coef m) (iid_of g n) y /\ cov g' = cov g /\ mu g' = mu g /\ eigenvalues g' = eigenvalues g /\ eigenvectors g' = eigenvectors g /\
  dims g' = dims g /\ sqrt_eigenvalues_mat g' = sqrt_eigenvalues_mat g /\ state g' = stop G (after_draws G (n * size m) (start G (state g))).
Proof. exact sampled. Qed.
Print Assumptions c48_samples.
(** Mean and covariance of the samples, from those of the draws. *)
Theorem c48_sample_statistics : forall G solve m c g n y g', (Z.of_nat (size m) < 2^32)%Z -> rows (vectors (solve c)) = size m -> make_gaussian G solve m c = Ok g ->
  samples g n = (y, g') ->
  (forall z, n <> O -> mean (iid_of g n) = Ok z -> exists w, mean y = Ok w /\
     forall i, (i < size m)%nat -> coef w i = total (size m) (fun j => entry (sampling_matrix g) i j * coef z j) + coef m i) /\
  (forall u, covariance (iid_of g n) = Ok u -> exists d, covariance y = Ok d /\ transformed (sampling_matrix g) u d /\
     ((forall i j, (i < size m)%nat -> (j < size m)%nat -> entry u i j = unit_entry i j) ->
        forall i j, (i < size m)%nat -> (j < size m)%nat -> entry d i j = sampling_square (size m) g i j)).
Proof. exact sample_statistics. Qed.
Print Assumptions c48_sample_statistics.
(** That the solver has not converged goes unnoticed: only NumericalIssue is checked for. *)
Definition st_counter : generator := Generator nat nat 0%nat (fun r => r) (fun s => (INR s, S s)) (fun s => s).
Definition st_one (v : R) : matrix := Matrix 1 1 (fun _ _ => v).
Theorem c48_convergence_refuted : exists G solve m c g, info (solve c) = NoConvergence /\ make_gaussian G solve m c = Ok g /\ sampling_square 1 g 0 0 <> entry c 0 0.
Proof.
  set (s := Solution NoConvergence (Vector 1 (fun _ => 1)) (st_one 1)).
  exists st_counter, (fun _ => s), (Vector 1 (fun _ => 0)), (st_one 4). eexists. split; [reflexivity|].
  assert (A : is_approx (st_one 4) (transpose (st_one 4)) = true).
  { apply is_approx_spec; [reflexivity|]. unfold near_symmetric, squares. cbn [rows st_one total entry].
    assert (0 <= (/ 10^12)^2) by (apply pow_le; left; apply Rinv_0_lt_compat; lra). nra. }
  assert (Z : sanitize_eigenvalues (st_one 4) (values s) = Ok (Vector 1 (fun i => Rmax 1 0))).
  { destruct (sanitize_spec (st_one 4) (values s)) as (t & T & H & _); [cbn; lia|cbn; lia|cbn; lia|]. apply H. intros i _. cbn.
    pose proof (tolerance_pos _ _ T). assert (0 < / 10^15) by (apply Rinv_0_lt_compat; lra). lra. }
  split.
  - unfold make_gaussian. cbn [size rows cols st_one]. change (to_unsigned 1) with 1%Z. cbn [Z.of_nat Z.eqb Pos.eqb Pos.of_succ_nat andb reassert obind].
    fold (st_one 4). rewrite A. cbn [reassert obind Nat.eqb info s]. change (Solution NoConvergence (Vector 1 (fun _ => 1)) (st_one 1)) with s. rewrite Z. cbn [obind]. reflexivity.
  - unfold sampling_square. cbn. rewrite Rmax_left by lra. rewrite sqrt_1. lra.
Qed.
Print Assumptions c48_convergence_refuted.
(** Drawing one sample is not the same as drawing several and taking the first. *)
Theorem c48_one_by_one_refuted : exists (g : gaussian st_counter), entry (fst (samples g 2)) 0 1 <> coef (fst (sample g)) 1.
Proof.
  exists (Gaussian (G:=st_counter) 2 (Vector 2 (fun _ => 0)) (Matrix 2 2 unit_entry) (Vector 2 (fun _ => 1)) (Matrix 2 2 unit_entry) (Vector 2 (fun _ => 1)) 0%nat).
  cbv -[Rplus Rmult IZR INR]. intro H. cbn [INR] in H. lra.
Qed.
Print Assumptions c48_one_by_one_refuted.
(** The covariance ((2, 1), (1, 2)). *)
Definition st_cov : matrix := Matrix 2 2 (fun i j => if (i =? j)%nat then 2 else 1).
Definition st_sol : solution := Solution Success (Vector 2 (fun i => if (i =? 0)%nat then 1 else 3))
  (Matrix 2 2 (fun i j => match i, j with 0%nat, 0%nat => - / sqrt 2 | _, _ => / sqrt 2 end)).
Lemma st_sol_ok : decomposes 2 (lower st_cov) st_sol.
Proof.
  assert (H : / sqrt 2 * / sqrt 2 = / 2). { rewrite <- Rinv_mult, sqrt_sqrt by lra. reflexivity. }
  split; [reflexivity|]. split; [reflexivity|]. split; [reflexivity|].
  split; [|split]; intros [|[|i]] [|[|j]] Hi Hj; try lia; cbn; unfold unit_entry; cbn; nra.
Qed.
Lemma st_tol : tolerance st_cov (/ 10^15).
Proof.
  exists 0%nat, 1%nat, 0%nat, 0%nat. cbn [rows cols st_cov]. do 4 (split; [lia|]). split.
  - intros [|[|p]] [|[|q]] Hp Hq; try lia; cbn; lra.
  - left. split; [reflexivity|cbn; lra].
Qed.
Example c48_example : exists g, make_gaussian st_counter (fun _ => st_sol) (Vector 2 (fun _ => 7)) st_cov = Ok g /\ (forall i j, (i < 2)%nat -> (j < 2)%nat -> sampling_square 2 g i j = entry st_cov i j) /\
  (forall x, 0 <= form 2 (lower st_cov) x) /\ make_gaussian st_counter (fun _ => st_sol) (Vector 3 (fun _ => 7)) st_cov = Throw /\
  make_gaussian st_counter (fun _ => st_sol) (Vector 0 (fun _ => 7)) (Matrix 0 0 (fun _ _ => 0)) = UB.
Proof.
  assert (F : forall x, 0 <= form 2 (lower st_cov) x). { intro x. cbn. nra. }
  destruct (c48_accepts st_counter (fun _ => st_sol) (Vector 2 (fun _ => 7)) st_cov eq_refl) as (_ & _ & H).
  destruct (H (/ 10^15)) as [A _]; [split; reflexivity|cbn; lia|discriminate|apply st_sol_ok|apply st_tol|].
  assert (P : 0 < / 10^15) by (apply Rinv_0_lt_compat; lra). destruct A as (g & E).
  - split; [unfold near_symmetric, squares; cbn; nra|]. intros x Hx. cbn [size] in *. pose proof (F x). nra.
  - exists g. split; [exact E|]. split.
    + intros i j Hi Hj. destruct (c48_reproduces st_counter (fun _ => st_sol) (Vector 2 (fun _ => 7)) st_cov (/ 10^15) g) as [X _];
        [reflexivity|split; reflexivity|cbn; lia|discriminate|apply st_sol_ok|apply st_tol|exact E|].
      apply (X i j Hi Hj); [exact F|]. cbn. rewrite Nat.eqb_sym. reflexivity.
    + split; [exact F|]. split; apply construction; try reflexivity; [intros [X _]; discriminate X|split; reflexivity].
Qed.
