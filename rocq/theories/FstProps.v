(** Sample statistics in double precision: C82. *)
From Coq Require Import Reals Lra Lia List Permutation.
From Flocq Require Import Core BinarySingleNaN.
From Verif Require Import Cpp FloatModel FloatSpec FloatProofs NrmSpec NrmProofs DriftProofs StatModel StatSpec StatProofs FstModel FstSpec FstProofs FstProofs2 FstProofs3 FstProofs4.
Import ListNotations.
Local Open Scope R_scope.

(** A sum, in whatever order it is computed. *)
Theorem c82_sum : forall l s, fsum_of l s -> Forall finite l -> add_up (map Rabs (map val l)) <= 2 ^ 1000 -> INR (length l) * u <= 1 ->
  finite s /\ Rabs (val s - add_up (map val l)) <= INR (Nat.pred (length l)) * u * add_up (map Rabs (map val l)) /\ (l = [] -> val s = 0).
Proof. exact sum_near. Qed.
Print Assumptions c82_sum.
Example c82_sum_case : exists l s, fsum_of l s /\ Forall finite l /\ map val l = [1; 4; -2] /\ INR (length l) * u <= 1.
Proof.
  exists (map (fun i => fentry three_samples i 0) (seq 0 3)). destruct (sum_exists (map (fun i => fentry three_samples i 0) (seq 0 3))) as [s S]. exists s. split; [exact S|].
  split; [rewrite Forall_map, Forall_forall; intros; apply three_value|]. split; [cbn [map seq]; rewrite !(fun k => proj2 (three_value k 0)); reflexivity|apply count_u; cbn; discriminate].
Qed.

(** mean(): the columns' means. *)
Theorem c82_mean : forall a, (0 < frows a)%nat -> (Z.of_nat (frows a) <= 2 ^ 53)%Z -> all_finite a -> (forall j, (j < fcols a)%nat -> total (frows a) (fun k => Rabs (val (fentry a k j))) <= 2 ^ 1000) ->
  (exists m, fmean a (Ok m)) /\ forall result, fmean a result -> exists m, result = Ok m /\ fsize m = fcols a /\
    forall j, (j < fcols a)%nat -> finite (fcoef m j) /\ Rabs (val (fcoef m j) - column_mean (holds a) j) <= mean_error (holds a) j.
Proof. exact means_made. Qed.
Print Assumptions c82_mean.
Example c82_mean_case : (0 < frows three_samples)%nat /\ all_finite three_samples /\ no_bigger 4 three_samples /\ column_mean (holds three_samples) 0 = 1 /\ mean_error (holds three_samples) 0 <= 2 / 10 ^ 15.
Proof. split; [cbn; lia|]. split; [apply three_fits|]. split; [apply three_fits|]. split; apply three_numbers. Qed.

(** mean() of no samples is undefined; it never throws. *)
Theorem c82_mean_defined : forall a, (exists result, fmean a result) /\ ~ fmean a Throw /\ (fmean a UB <-> frows a = O /\ fcols a <> O) /\ (fmean a UB -> forall m, ~ fmean a (Ok m)).
Proof. exact mean_defined. Qed.
Print Assumptions c82_mean_defined.
Example c82_mean_defined_case : fmean (FMatrix 0 2 (fun _ _ => of_int 1)) UB /\ ~ fmean (FMatrix 3 2 (fun _ _ => of_int 1)) UB.
Proof. split; [apply mean_defined; cbn; auto|]. intro H. apply mean_defined in H. destruct H as [H _]. discriminate H. Qed.

(** covariance(): throws below two samples; otherwise near the exact covariance, nearly
    symmetric, and no variance is negative. *)
Theorem c82_covariance : forall a, (Z.of_nat (frows a) < 2 ^ 32)%Z -> ((frows a < 2)%nat -> forall result, fcovariance a result <-> result = Throw) /\
  ((2 <= frows a)%nat -> all_finite a -> no_bigger (2 ^ 480) a -> (exists c, fcovariance a (Ok c)) /\ forall result, fcovariance a result -> exists c, result = Ok c /\ frows c = fcols a /\ fcols c = fcols a /\ all_finite c /\
    forall i j, (i < fcols a)%nat -> (j < fcols a)%nat -> let s := holds a in
      Rabs (val (fentry c i j) - pairwise_covariance s i j) <= 2 * (mean_error s i * mean_error s j) + (INR (frows a) + 4) * u * (widened s i * widened s j) + 4 * tiny /\
      Rabs (val (fentry c i j) - val (fentry c j i)) <= 2 * ((INR (frows a) + 4) * u * (widened s i * widened s j) + 4 * tiny) /\ (i = j -> 0 <= val (fentry c i j))).
Proof. exact covariance_near. Qed.
Print Assumptions c82_covariance.
Example c82_covariance_case : (Z.of_nat (frows three_samples) < 2 ^ 32)%Z /\ (2 <= frows three_samples)%nat /\ all_finite three_samples /\ no_bigger (2 ^ 480) three_samples /\ let s := holds three_samples in
  pairwise_covariance s 0 0 = 9 /\ 2 * (mean_error s 0 * mean_error s 0) + (INR (frows three_samples) + 4) * u * (widened s 0 * widened s 0) + 4 * tiny <= 8 / 10 ^ 15.
Proof. split; [reflexivity|]. split; [cbn; lia|]. split; [apply three_fits|]. split; [apply (fits_480 4); [lra|apply three_fits]|]. split; apply three_numbers. Qed.

(** It is nearly positive semi-definite. *)
Theorem c82_semi_definite : forall a c y, (Z.of_nat (frows a) < 2 ^ 32)%Z -> (2 <= frows a)%nat -> all_finite a -> no_bigger (2 ^ 480) a -> fcovariance a (Ok c) -> let d := fcols a in let w i := widened (holds a) i * Rabs (y i) in
  - ((INR (frows a) + 4) * u * (total d w * total d w) + 4 * tiny * (total d (fun i => Rabs (y i)) * total d (fun i => Rabs (y i)))) <= form d (entry (holds c)) y.
Proof. exact covariance_semi. Qed.
Print Assumptions c82_semi_definite.
Example c82_semi_definite_case : exists c y, (2 <= frows pair_samples)%nat /\ all_finite pair_samples /\ no_bigger (2 ^ 480) pair_samples /\ fcovariance pair_samples (Ok c) /\ form 2 (entry (holds c)) y = -128.
Proof.
  destruct pair_fits as [F B]. destruct (covariance_near pair_samples eq_refl) as [_ C]. destruct (C ltac:(cbn; lia) F B) as [[c X] _]. exists c. eexists. split; [cbn; lia|]. split; [exact F|]. split; [exact B|]. split; [exact X|]. apply (pair_refused c X).
Qed.

(** A Gaussian can be made of it if the variances are small enough for that. *)
Theorem c82_accepted : forall G solve a c v t, (Z.of_nat (frows a) < 2 ^ 32)%Z -> (2 <= frows a)%nat -> all_finite a -> no_bigger (2 ^ 480) a -> fcovariance a (Ok c) ->
  (Z.of_nat (size v) < 2 ^ 32)%Z -> size v = fcols a -> (0 < fcols a)%nat -> info (solve (holds c)) <> NumericalIssue -> decomposes (fcols a) (lower (holds c)) (solve (holds c)) ->
  near_symmetric (holds c) -> tolerance (holds c) t -> (INR (frows a) + 4) * u * total (fcols a) (fun i => widened (holds a) i * widened (holds a) i) + 4 * tiny * INR (fcols a) < t ->
  exists g, make_gaussian G solve v (holds c) = Ok g.
Proof. exact accepted. Qed.
Print Assumptions c82_accepted.
Example c82_accepted_case : all_finite half_samples /\ no_bigger (2 ^ 480) half_samples /\ exists c t solve, fcovariance half_samples (Ok c) /\ near_symmetric (holds c) /\ tolerance (holds c) t /\ info (solve (holds c)) <> NumericalIssue /\ decomposes 2 (lower (holds c)) (solve (holds c)) /\
  (INR 2 + 4) * u * total 2 (fun i => widened (holds half_samples) i * widened (holds half_samples) i) + 4 * tiny * INR 2 < t /\ / 5 <= entry (holds c) 0 1.
Proof. split; [apply half_fits|]. split; [apply (fits_480 1); [lra|apply half_fits]|exact half_accepted]. Qed.

(** Wrong: the mean of equal samples is that sample, or lies between the samples at least, and
    their variance is zero. *)
Theorem c82_equal_refuted : exists v, finite v /\ val v = 6004799503160662 /\ let a := FMatrix 3 1 (fun _ _ => v) in
  (forall m, fmean a (Ok m) -> val (fcoef m 0) = val v - 1) /\ (forall c, fcovariance a (Ok c) -> val (fentry c 0 0) = 3 / 2) /\ (exists m, fmean a (Ok m)) /\ exists c, fcovariance a (Ok c).
Proof.
  exists big_value. destruct big_value_val as [F V]. split; [exact F|]. split; [exact V|]. cbv zeta. rewrite V. fold (equal_samples 3 big_value).
  assert (FF : all_finite (equal_samples 3 big_value)) by (intros i j _ _; exact F). assert (B : Rabs (val big_value) <= 2 ^ 60) by (rewrite V, Rabs_pos_eq by lra; lra).
  split; [intros m M; rewrite (proj1 (equal_mean m M)); lra|]. split; [exact equal_covariance|]. split.
  - apply (means_made (equal_samples 3 big_value)); [cbn; lia|discriminate|exact FF|]. intros j _. cbn [equal_samples frows fentry]. rewrite total_const. apply pow_1000_big. replace (INR 3) with 3 by (cbn; lra). lra.
  - destruct (covariance_near (equal_samples 3 big_value) eq_refl) as [_ C]. apply C; [cbn; lia|exact FF|]. intros i j _ _. apply Rle_trans with (1 := B). apply Rle_pow; [lra|]. apply Nat.leb_le. reflexivity.
Qed.
Print Assumptions c82_equal_refuted.

(** Wrong: the covariance is positive semi-definite, and a Gaussian can be made of the
    covariance of any samples. *)
Theorem c82_own_samples_refuted : exists a, frows a = 2%nat /\ fcols a = 2%nat /\ all_finite a /\ (exists c, fcovariance a (Ok c)) /\
  forall c, fcovariance a (Ok c) -> (exists y, form 2 (entry (holds c)) y = -128 /\ square 2 y = 2) /\
    (exists solve, info (solve (holds c)) = Success /\ decomposes 2 (lower (holds c)) (solve (holds c))) /\
    forall G solve v, size v = 2%nat -> info (solve (holds c)) <> NumericalIssue -> decomposes 2 (lower (holds c)) (solve (holds c)) -> make_gaussian G solve v (holds c) = Throw.
Proof.
  exists pair_samples. split; [reflexivity|]. split; [reflexivity|]. destruct pair_fits as [F B]. split; [exact F|]. split.
  - destruct (covariance_near pair_samples eq_refl) as [_ C]. apply C; [cbn; lia|exact F|exact B].
  - intros c H. destruct (pair_refused c H) as (P & Q & R). split; [|split; [exact Q|exact R]]. eexists. split; [exact P|]. unfold square. cbn. lra.
Qed.
Print Assumptions c82_own_samples_refuted.
