(** Covariances against the exact ones, and Gaussians made from them. *)
From Coq Require Import Reals Lra Lia List Permutation Psatz.
From Flocq Require Import Core BinarySingleNaN.
From Verif Require Import Cpp FloatModel FloatSpec FloatProofs NrmSpec NrmProofs DriftProofs StatModel StatSpec StatProofs FstModel FstSpec FstProofs FstProofs2.
Import ListNotations.
Local Open Scope R_scope.

(** ** Totals *)
Lemma total_cauchy n f g : total n (fun k => Rabs (f k * g k)) * total n (fun k => Rabs (f k * g k)) <= total n (fun k => f k * f k) * total n (fun k => g k * g k).
Proof.
  induction n as [|n IH]; cbn [total]; [lra|]. set (s := total n (fun k => Rabs (f k * g k))) in *. set (A := total n (fun k => f k * f k)) in *. set (B := total n (fun k => g k * g k)) in *.
  assert (0 <= A) by (apply total_nonneg; intros; nra). assert (0 <= B) by (apply total_nonneg; intros; nra). assert (S0 : 0 <= s) by (apply total_nonneg; intros; apply Rabs_pos).
  rewrite Rabs_mult. set (x := Rabs (f n)). set (y := Rabs (g n)). assert (X : f n * f n = x * x) by (unfold x; rewrite <- Rabs_mult, Rabs_pos_eq; [reflexivity|nra]). assert (Y : g n * g n = y * y) by (unfold y; rewrite <- Rabs_mult, Rabs_pos_eq; [reflexivity|nra]).
  assert (0 <= x) by apply Rabs_pos. assert (0 <= y) by apply Rabs_pos. rewrite X, Y.
  assert (K : 2 * (s * (x * y)) <= A * (y * y) + B * (x * x)); [|lra].
  assert (0 <= x * y) by nra. assert (Q0 : 0 <= A * (y * y) + B * (x * x)) by (apply Rplus_le_le_0_compat; apply Rmult_le_pos; nra). apply Rsqr_incr_0_var; [|exact Q0]. unfold Rsqr.
  assert (s * s * ((x * y) * (x * y)) <= A * B * ((x * y) * (x * y))) by (apply Rmult_le_compat_r; [apply Rmult_le_pos; assumption|exact IH]).
  pose proof (Rle_0_sqr (A * (y * y) - B * (x * x))) as Z. unfold Rsqr in Z. lra.
Qed.
Lemma split n x y a b : (2 <= n)%nat -> total n (fun k => (x k - a) * (y k - b)) / (INR n - 1) =
  total n (fun k => total n (fun l => (x k - x l) * (y k - y l))) / (2 * INR n * (INR n - 1)) + INR n / (INR n - 1) * ((average n x - a) * (average n y - b)).
Proof.
  intro N. assert (P : 2 <= INR n) by (change 2 with (INR 2); apply le_INR; exact N). assert (MX : INR n * average n x = total n x) by (unfold average; field; lra). assert (MY : INR n * average n y = total n y) by (unfold average; field; lra).
  pose proof (centred n x y (average n x) (average n y) ltac:(lia) MX MY) as C.
  replace (total n (fun k => total n (fun l => (x k - x l) * (y k - y l))) / (2 * INR n * (INR n - 1))) with (total n (fun k => (x k - average n x) * (y k - average n y)) / (INR n - 1)) by (rewrite C; field; lra).
  rewrite (total_ext n (fun k => (x k - a) * (y k - b)) (fun k => (x k - average n x) * (y k - average n y) + ((average n y - b) * (x k - average n x) + (average n x - a) * (y k - average n y) + (average n x - a) * (average n y - b)))) by (intros; ring).
  rewrite !total_plus, total_const, !total_scale, !total_minus, !total_const, MX, MY. field. lra.
Qed.
Lemma over_two n : (2 <= n)%nat -> 0 <= INR n / (INR n - 1) <= 2.
Proof. intro N. assert (P : 2 <= INR n) by (change 2 with (INR 2); apply le_INR; exact N). split; [apply div_pos; lra|]. apply over_le; lra. Qed.
Lemma root_wide v e m : 0 <= v -> Rabs e <= m -> v + 2 * (e * e) <= (sqrt v + 2 * m) * (sqrt v + 2 * m).
Proof. intros V E. pose proof (sqrt_sqrt v V). pose proof (sqrt_pos v). pose proof (Rabs_pos e). assert (e * e <= m * m) by (rewrite <- (Rabs_pos_eq (e * e)) by nra; rewrite Rabs_mult; nra). nra. Qed.

(** ** The computed covariance *)
(** The covariance about the computed means. *)
Definition about (s : matrix) (m : nat -> R) (i j : nat) : R := total (rows s) (fun k => (entry s k i - m i) * (entry s k j - m j)) / (INR (rows s) - 1).
Lemma variance_pos s j : (2 <= rows s)%nat -> 0 <= pairwise_covariance s j j.
Proof.
  intro N. assert (P : 2 <= INR (rows s)) by (change 2 with (INR 2); apply le_INR; exact N). unfold pairwise_covariance. apply div_pos; [|apply Rmult_lt_0_compat; lra]. apply total_nonneg. intros. apply total_nonneg. intros. apply Rle_0_sqr.
Qed.
Lemma mean_error_pos s j : (2 <= rows s)%nat -> 0 < mean_error s j.
Proof.
  intro N. assert (P : 2 <= INR (rows s)) by (change 2 with (INR 2); apply le_INR; exact N). unfold mean_error. rewrite tiny_h. pose proof h_pos. pose proof u_pos.
  assert (0 <= magnitude s j) by (apply div_pos; [apply total_nonneg; intros; apply Rabs_pos|lra]). assert (0 <= (INR (rows s) + 1) * u * magnitude s j) by (apply Rmult_le_pos; [apply Rmult_le_pos; lra|assumption]). lra.
Qed.
Lemma widened_pos s j : (2 <= rows s)%nat -> 0 <= widened s j.
Proof. intro N. unfold widened, deviation. pose proof (sqrt_pos (pairwise_covariance s j j)). pose proof (mean_error_pos s j N). lra. Qed.
Lemma about_near s m i j : (2 <= rows s)%nat -> Rabs (m i - column_mean s i) <= mean_error s i -> Rabs (m j - column_mean s j) <= mean_error s j ->
  Rabs (about s m i j - pairwise_covariance s i j) <= 2 * (mean_error s i * mean_error s j).
Proof.
  intros N I J. unfold about. rewrite (split (rows s) (fun k => entry s k i) (fun k => entry s k j) (m i) (m j) N). fold (pairwise_covariance s i j). fold (column_mean s i). fold (column_mean s j).
  match goal with |- Rabs (?a + ?b - ?c) <= _ => replace (a + b - c) with b by ring end. destruct (over_two _ N) as [A B]. rewrite !Rabs_mult, (Rabs_pos_eq (INR (rows s) / _) A).
  rewrite (Rabs_minus_sym (column_mean s i)), (Rabs_minus_sym (column_mean s j)). apply Rmult_le_compat; [exact A|apply Rmult_le_pos; apply Rabs_pos|exact B|]. apply Rmult_le_compat; [apply Rabs_pos|apply Rabs_pos|exact I|exact J].
Qed.
Lemma about_abs s m i j : (2 <= rows s)%nat -> Rabs (m i - column_mean s i) <= mean_error s i -> Rabs (m j - column_mean s j) <= mean_error s j ->
  total (rows s) (fun k => Rabs ((entry s k i - m i) * (entry s k j - m j))) / (INR (rows s) - 1) <= widened s i * widened s j.
Proof.
  intros N I J. assert (P : 2 <= INR (rows s)) by (change 2 with (INR 2); apply le_INR; exact N). pose proof (widened_pos s i N) as WI. pose proof (widened_pos s j N) as WJ.
  assert (D : forall q, Rabs (m q - column_mean s q) <= mean_error s q -> about s m q q <= widened s q * widened s q).
  { intros q Q. unfold about. rewrite (split (rows s) (fun k => entry s k q) (fun k => entry s k q) (m q) (m q) N). fold (pairwise_covariance s q q). fold (column_mean s q).
    eapply Rle_trans; [|apply (root_wide (pairwise_covariance s q q) (m q - column_mean s q)); [apply variance_pos, N|exact Q]]. destruct (over_two _ N) as [A B].
    apply Rplus_le_compat_l. replace ((column_mean s q - m q) * (column_mean s q - m q)) with ((m q - column_mean s q) * (m q - column_mean s q)) by ring. apply Rmult_le_compat_r; [apply Rle_0_sqr|exact B]. }
  apply Rsqr_incr_0_var; [|apply Rmult_le_pos; assumption]. unfold Rsqr.
  pose proof (total_cauchy (rows s) (fun k => entry s k i - m i) (fun k => entry s k j - m j)) as C. cbv beta in C. set (T := total _ _) in C |- *.
  replace (T / (INR (rows s) - 1) * (T / (INR (rows s) - 1))) with (T * T / ((INR (rows s) - 1) * (INR (rows s) - 1))) by (field; lra).
  apply Rle_trans with (about s m i i * about s m j j).
  - unfold about. replace (total (rows s) (fun k => (entry s k i - m i) * (entry s k i - m i)) / (INR (rows s) - 1) * (total (rows s) (fun k => (entry s k j - m j) * (entry s k j - m j)) / (INR (rows s) - 1)))
      with (total (rows s) (fun k => (entry s k i - m i) * (entry s k i - m i)) * total (rows s) (fun k => (entry s k j - m j) * (entry s k j - m j)) / ((INR (rows s) - 1) * (INR (rows s) - 1))) by (field; lra).
    apply Rmult_le_compat_r; [left; apply Rinv_0_lt_compat; nra|exact C].
  - replace (widened s i * widened s j * (widened s i * widened s j)) with (widened s i * widened s i * (widened s j * widened s j)) by ring.
    apply Rmult_le_compat; [|..|apply D, I|apply D, J]; unfold about; (apply div_pos; [apply total_nonneg; intros; apply Rle_0_sqr|lra]).
Qed.

Lemma means_of a m : (0 < frows a)%nat -> fcolwise_mean a (Ok m) -> forall j, (j < fcols a)%nat -> exists s, fsum_of (map (fun i => fentry a i j) (seq 0 (frows a))) s /\ m j = fdivide s (of_int (Z.of_nat (frows a))).
Proof. intros N H. unfold fcolwise_mean in H. destruct (Nat.eqb_spec (frows a) 0); [lia|]. cbn in H. destruct H as (m' & E & H). injection E as <-. exact H. Qed.
Lemma column_bound a j : (Z.of_nat (frows a) < 2 ^ 32)%Z -> no_bigger (2 ^ 480) a -> (j < fcols a)%nat -> total (frows a) (fun k => Rabs (val (fentry a k j))) <= INR (frows a) * 2 ^ 480 /\ INR (frows a) * 2 ^ 480 <= 2 ^ 1000.
Proof.
  intros N B J. destruct b480 as [B40 B1]. assert (E40 : 2 ^ 40 = 1099511627776) by lra. rewrite E40 in B40. assert (IN' : INR (frows a) <= 4294967296) by (rewrite INR_IZR_INZ; apply IZR_le; lia). pose proof (pos_INR (frows a)). split.
  - apply Rle_trans with (total (frows a) (fun _ => 2 ^ 480)); [apply total_le; intros k K; apply B; assumption|rewrite total_const; lra].
  - set (b := 2 ^ 480) in *. assert (INR (frows a) * b <= 4294967296 * b) by (apply Rmult_le_compat_r; lra). nra.
Qed.
Lemma covariance_values a result : (Z.of_nat (frows a) < 2 ^ 32)%Z -> (2 <= frows a)%nat -> all_finite a -> no_bigger (2 ^ 480) a -> fcovariance a result ->
  exists c m, result = Ok c /\ frows c = fcols a /\ fcols c = fcols a /\ all_finite c /\
    (forall j, (j < fcols a)%nat -> Rabs (m j - column_mean (holds a) j) <= mean_error (holds a) j) /\
    forall i j, (i < fcols a)%nat -> (j < fcols a)%nat -> Rabs (val (fentry c i j) - about (holds a) m i j) <= (INR (frows a) + 4) * u * (widened (holds a) i * widened (holds a) j) + 4 * tiny /\ (i = j -> 0 <= val (fentry c i j)).
Proof.
  intros N N2 F B H. unfold fcovariance in H. rewrite (to_unsigned_small _ N) in H. destruct (Z.ltb_spec 1 (Z.of_nat (frows a))) as [_|L]; [|lia]. destruct H as (r & R & H).
  destruct r as [m| |]; [|exfalso..].
  2:{ unfold fcolwise_mean in R. destruct (Nat.eqb_spec (frows a) 0); [lia|]. destruct R as (m & R & _). discriminate R. }
  2:{ unfold fcolwise_mean in R. destruct (Nat.eqb_spec (frows a) 0); [lia|]. destruct R as (m & R & _). discriminate R. }
  destruct H as (c & -> & H). exists (FMatrix (fcols a) (fcols a) c), (fun j => val (m j)). split; [reflexivity|]. split; [reflexivity|]. split; [reflexivity|].
  assert (M : forall j, (j < fcols a)%nat -> finite (m j) /\ Rabs (val (m j) - column_mean (holds a) j) <= mean_error (holds a) j).
  { intros j J. destruct (means_of a m ltac:(lia) R j J) as (s & S & E). destruct (column_bound a j N B J) as [C1 C2]. apply (mean_near a j s); [lia|lia|intros; apply F; assumption|lra|exact S|exact E]. }
  assert (IN : 2 <= INR (frows a)) by (change 2 with (INR 2); apply le_INR; exact N2). assert (IN' : INR (frows a) <= 4294967296) by (rewrite INR_IZR_INZ; apply IZR_le; lia). destruct b480 as [_ B1].
  assert (CENT : forall k j, (k < frows a)%nat -> (j < fcols a)%nat -> Rabs (val (fentry a k j) - val (m j)) <= 4 * 2 ^ 480).
  { intros k j K J. destruct (M j J) as [_ E]. pose proof (B k j K J) as BK. destruct (column_bound a j N B J) as [C1 _].
    assert (MG : magnitude (holds a) j <= 2 ^ 480) by (unfold magnitude, average, holds; cbn [rows entry]; apply over_le; [lra|]; lra).
    assert (MG0 : 0 <= magnitude (holds a) j) by (apply div_pos; [apply total_nonneg; intros; apply Rabs_pos|cbn; lra]).
    assert (CM : Rabs (column_mean (holds a) j) <= magnitude (holds a) j).
    { unfold column_mean, magnitude, average, holds. cbn [rows entry]. rewrite div_abs by lra. apply Rmult_le_compat_r; [left; apply Rinv_0_lt_compat; lra|]. exact (total_abs (frows a) _). }
    assert (ME : mean_error (holds a) j <= 2 ^ 480 + 1).
    { unfold mean_error. rewrite tiny_h. pose proof h_1. cbn [holds rows]. assert ((INR (frows a) + 1) * u <= 1) by (rewrite u_num; lra). pose proof u_pos. assert ((INR (frows a) + 1) * u * magnitude (holds a) j <= 1 * 2 ^ 480) by (apply Rmult_le_compat; [apply Rmult_le_pos; lra|exact MG0|assumption|exact MG]). lra. }
    replace (val (fentry a k j) - val (m j)) with (val (fentry a k j) + (- (val (m j) - column_mean (holds a) j) + - column_mean (holds a) j)) by ring. eapply Rle_trans; [apply Rabs_triang|]. eapply Rle_trans; [apply Rplus_le_compat_l, Rabs_triang|]. rewrite !Rabs_Ropp. lra. }
  assert (ENT : forall i j, (i < fcols a)%nat -> (j < fcols a)%nat -> finite (c i j) /\ Rabs (val (c i j) - about (holds a) (fun j => val (m j)) i j) <= (INR (frows a) + 4) * u * (widened (holds a) i * widened (holds a) j) + 4 * tiny /\ (i = j -> 0 <= val (c i j))).
  { intros i j I J. destruct (H i j I J) as (s & S & E). destruct (entry_near (frows a) (fun k => fentry a k i) (fun k => fentry a k j) (m i) (m j) s (c i j) N2 N) as (FC & EC & PC);
      [intros k K; split; apply F; assumption|apply M, I|apply M, J|intros k K; split; apply CENT; assumption|exact S|exact E|]. split; [exact FC|]. split.
    - rewrite tiny_h. apply Rle_trans with (1 := EC). apply Rplus_le_compat_r, Rmult_le_compat_l; [pose proof u_pos; apply Rmult_le_pos; lra|]. exact (about_abs (holds a) (fun j => val (m j)) i j N2 (proj2 (M i I)) (proj2 (M j J))).
    - intros ->. apply PC; reflexivity. }
  split; [intros i j I J; apply ENT; assumption|]. split; [intros j J; apply M, J|]. intros i j I J. apply ENT; assumption.
Qed.

Lemma means_made a : (0 < frows a)%nat -> (Z.of_nat (frows a) <= 2 ^ 53)%Z -> all_finite a -> (forall j, (j < fcols a)%nat -> total (frows a) (fun k => Rabs (val (fentry a k j))) <= 2 ^ 1000) ->
  (exists m, fmean a (Ok m)) /\ forall result, fmean a result -> exists m, result = Ok m /\ fsize m = fcols a /\
    forall j, (j < fcols a)%nat -> finite (fcoef m j) /\ Rabs (val (fcoef m j) - column_mean (holds a) j) <= mean_error (holds a) j.
Proof.
  intros Z N F B. assert (EB : ((frows a =? 0)%nat && negb (fcols a =? 0)%nat)%bool = false) by (destruct (Nat.eqb_spec (frows a) 0); [lia|reflexivity]). split.
  - assert (X : exists m : nat -> f64, forall j, exists s, fsum_of (map (fun i => fentry a i j) (seq 0 (frows a))) s /\ m j = fdivide s (of_int (Z.of_nat (frows a)))).
    { exists (fun j => fdivide (fold_right fadd (of_int 0) (map (fun i => fentry a i j) (seq 0 (frows a)))) (of_int (Z.of_nat (frows a)))). intro j. eexists. split; [|reflexivity].
      induction (map (fun i => fentry a i j) (seq 0 (frows a))) as [|x l IH]; [constructor|]. cbn. apply (sum_both (x :: l) [x] l); [reflexivity|constructor|exact IH]. }
    destruct X as [m X]. exists (FVector (fcols a) m), (Ok m). split; [|reflexivity]. unfold fcolwise_mean. rewrite EB. exists m. split; [reflexivity|]. intros j _. apply X.
  - intros result (r & R & ->). pose proof R as R'. unfold fcolwise_mean in R'. rewrite EB in R'. destruct R' as (m & -> & _). exists (FVector (fcols a) m). split; [reflexivity|]. split; [reflexivity|].
    intros j J. cbn [fcoef]. destruct (means_of a m Z R j J) as (s & S & E). apply (mean_near a j s); [exact Z|exact N|intros; apply F; assumption|apply B, J|exact S|exact E].
Qed.
Lemma covariance_exists a : exists result, fcovariance a result.
Proof.
  unfold fcovariance. destruct (1 <? to_unsigned (frows a))%Z eqn:L; [|eexists; reflexivity].
  assert (EB : ((frows a =? 0)%nat && negb (fcols a =? 0)%nat)%bool = false) by (destruct (Nat.eqb_spec (frows a) 0) as [E|]; [rewrite E in L; discriminate L|reflexivity]).
  assert (SUM : forall l, fsum_of l (fold_right fadd (of_int 0) l)) by (induction l as [|x l IH]; [constructor|]; cbn; apply (sum_both (x :: l) [x] l); [reflexivity|constructor|exact IH]).
  set (m := fun j => fdivide (fold_right fadd (of_int 0) (map (fun i => fentry a i j) (seq 0 (frows a)))) (of_int (Z.of_nat (frows a)))).
  exists (Ok (FMatrix (fcols a) (fcols a) (fun i j => fdivide (fold_right fadd (of_int 0) (map (fun k => fmul (fsub (fentry a k i) (m i)) (fsub (fentry a k j) (m j))) (seq 0 (frows a)))) (of_int (to_unsigned (frows a) - 1))))).
  exists (Ok m). split; [unfold fcolwise_mean; rewrite EB; exists m; split; [reflexivity|]; intros j _; eexists; split; [apply SUM|reflexivity]|].
  eexists. split; [reflexivity|]. intros i j _ _. eexists. split; [apply SUM|reflexivity].
Qed.
Lemma covariance_near a : (Z.of_nat (frows a) < 2 ^ 32)%Z -> ((frows a < 2)%nat -> forall result, fcovariance a result <-> result = Throw) /\
  ((2 <= frows a)%nat -> all_finite a -> no_bigger (2 ^ 480) a -> (exists c, fcovariance a (Ok c)) /\ forall result, fcovariance a result -> exists c, result = Ok c /\ frows c = fcols a /\ fcols c = fcols a /\ all_finite c /\
    forall i j, (i < fcols a)%nat -> (j < fcols a)%nat -> let s := holds a in
      Rabs (val (fentry c i j) - pairwise_covariance s i j) <= 2 * (mean_error s i * mean_error s j) + (INR (frows a) + 4) * u * (widened s i * widened s j) + 4 * tiny /\
      Rabs (val (fentry c i j) - val (fentry c j i)) <= 2 * ((INR (frows a) + 4) * u * (widened s i * widened s j) + 4 * tiny) /\ (i = j -> 0 <= val (fentry c i j))).
Proof.
  intro N. split.
  - intros L result. unfold fcovariance. rewrite (to_unsigned_small _ N). destruct (Z.ltb_spec 1 (Z.of_nat (frows a))); [lia|]. reflexivity.
  - intros L F B. assert (ALL : forall result, fcovariance a result -> exists c, result = Ok c /\ frows c = fcols a /\ fcols c = fcols a /\ all_finite c /\
    forall i j, (i < fcols a)%nat -> (j < fcols a)%nat -> let s := holds a in
      Rabs (val (fentry c i j) - pairwise_covariance s i j) <= 2 * (mean_error s i * mean_error s j) + (INR (frows a) + 4) * u * (widened s i * widened s j) + 4 * tiny /\
      Rabs (val (fentry c i j) - val (fentry c j i)) <= 2 * ((INR (frows a) + 4) * u * (widened s i * widened s j) + 4 * tiny) /\ (i = j -> 0 <= val (fentry c i j))).
    { intros result H. destruct (covariance_values a result N L F B H) as (c & m & -> & R & C & FC & M & E). exists c. split; [reflexivity|]. split; [exact R|]. split; [exact C|]. split; [exact FC|]. intros i j I J s. destruct (E i j I J) as [E1 E2]. split; [|split; [|exact E2]].
      2:{ destruct (E j i J I) as [E3 _]. fold s in E1, E3. assert (SYM : about s m j i = about s m i j) by (unfold about; f_equal; apply total_ext; intros; ring). rewrite SYM, (Rmult_comm (widened s j)) in E3. rewrite Rabs_minus_sym in E3.
          replace (val (fentry c i j) - val (fentry c j i)) with ((val (fentry c i j) - about s m i j) + (about s m i j - val (fentry c j i))) by ring. eapply Rle_trans; [apply Rabs_triang|]. lra. }
     
      pose proof (about_near s m i j L (M i I) (M j J)) as A. fold s in E1. replace (val (fentry c i j) - pairwise_covariance s i j) with ((val (fentry c i j) - about s m i j) + (about s m i j - pairwise_covariance s i j)) by ring. eapply Rle_trans; [apply Rabs_triang|]. lra. }
    split; [|exact ALL]. destruct (covariance_exists a) as [result H]. destruct (ALL result H) as (c & -> & _). exists c. exact H.
Qed.

(** ** Nearly positive semi-definite *)
Lemma form_about s m y : (2 <= rows s)%nat -> 0 <= form (cols s) (about s m) y.
Proof.
  intro N. assert (P : 2 <= INR (rows s)) by (change 2 with (INR 2); apply le_INR; exact N). unfold form.
  rewrite (total_ext (cols s) _ (fun i => total (rows s) (fun k => total (cols s) (fun j => / (INR (rows s) - 1) * ((y i * (entry s k i - m i)) * (y j * (entry s k j - m j))))))).
  2:{ intros i _. rewrite total_swap. apply total_ext. intros j _. unfold about. rewrite (total_scale (rows s) (/ (INR (rows s) - 1))).
      rewrite (total_ext (rows s) (fun i0 => y i * (entry s i0 i - m i) * (y j * (entry s i0 j - m j))) (fun i0 => (y i * y j) * ((entry s i0 i - m i) * (entry s i0 j - m j)))) by (intros; ring). rewrite total_scale. field. lra. }
  rewrite total_swap. apply total_nonneg. intros k _. set (z := fun i => y i * (entry s k i - m i)).
  rewrite (total_ext (cols s) _ (fun i => / (INR (rows s) - 1) * total (cols s) (fun j => z i * z j))) by (intros; apply total_scale). rewrite total_scale, <- total_prod.
  apply Rmult_le_pos; [left; apply Rinv_0_lt_compat; lra|nra].
Qed.
Lemma form_differs n c d (w : nat -> R) e t y : (forall i j, (i < n)%nat -> (j < n)%nat -> Rabs (c i j - d i j) <= e * (w i * w j) + t) ->
  Rabs (form n c y - form n d y) <= e * (total n (fun i => w i * Rabs (y i)) * total n (fun i => w i * Rabs (y i))) + t * (total n (fun i => Rabs (y i)) * total n (fun i => Rabs (y i))).
Proof.
  intro E. unfold form. rewrite <- total_minus. eapply Rle_trans; [apply total_abs|]. rewrite !total_prod.
  rewrite <- !total_scale, <- total_plus. apply total_le. intros i I. cbv beta. rewrite <- total_minus. eapply Rle_trans; [apply total_abs|]. rewrite <- !total_scale, <- total_plus. apply total_le. intros j J. cbv beta.
  replace (y i * c i j * y j - y i * d i j * y j) with ((c i j - d i j) * (y i * y j)) by ring. rewrite !Rabs_mult. pose proof (E i j I J). pose proof (Rabs_pos (y i)). pose proof (Rabs_pos (y j)).
  replace (e * (w i * Rabs (y i) * (w j * Rabs (y j))) + t * (Rabs (y i) * Rabs (y j))) with ((e * (w i * w j) + t) * (Rabs (y i) * Rabs (y j))) by ring. apply Rmult_le_compat_r; [nra|assumption].
Qed.
Lemma covariance_semi a c y : (Z.of_nat (frows a) < 2 ^ 32)%Z -> (2 <= frows a)%nat -> all_finite a -> no_bigger (2 ^ 480) a -> fcovariance a (Ok c) -> let d := fcols a in let w i := widened (holds a) i * Rabs (y i) in
  - ((INR (frows a) + 4) * u * (total d w * total d w) + 4 * tiny * (total d (fun i => Rabs (y i)) * total d (fun i => Rabs (y i)))) <= form d (entry (holds c)) y.
Proof.
  intros N N2 F B H d w. destruct (covariance_values a _ N N2 F B H) as (c' & m & E & R & C & FC & M & V). injection E as <-.
  pose proof (form_differs d (entry (holds c)) (about (holds a) m) (widened (holds a)) ((INR (frows a) + 4) * u) (4 * tiny) y) as D. specialize (D (fun i j I J => proj1 (V i j I J))). fold w in D.
  pose proof (form_about (holds a) m y N2) as P. cbn [holds cols] in P. apply Rabs_le_inv in D. unfold w, d in *. lra.
Qed.

(** ** Making a Gaussian of it *)
Lemma accepted G solve a c v t : (Z.of_nat (frows a) < 2 ^ 32)%Z -> (2 <= frows a)%nat -> all_finite a -> no_bigger (2 ^ 480) a -> fcovariance a (Ok c) ->
  (Z.of_nat (size v) < 2 ^ 32)%Z -> size v = fcols a -> (0 < fcols a)%nat -> info (solve (holds c)) <> NumericalIssue -> decomposes (fcols a) (lower (holds c)) (solve (holds c)) ->
  near_symmetric (holds c) -> tolerance (holds c) t -> (INR (frows a) + 4) * u * total (fcols a) (fun i => widened (holds a) i * widened (holds a) i) + 4 * tiny * INR (fcols a) < t ->
  exists g, make_gaussian G solve v (holds c) = Ok g.
Proof.
  intros N N2 F B H SV SA D0 NI DE NS T L. destruct (covariance_values a _ N N2 F B H) as (c' & m & E & R & C & FC & M & V). injection E as <-.
  destruct (construction G solve v (holds c) SV) as (_ & _ & A). destruct (A t) as [A' _]; [split; cbn; congruence|lia|exact NI|rewrite SA; exact DE|exact T|]. apply A'. split; [exact NS|]. rewrite SA. intros x X. set (d := fcols a) in *.
  assert (SYM : forall i j, about (holds a) m i j = about (holds a) m j i) by (intros; unfold about; f_equal; apply total_ext; intros; ring).
  assert (LOW : forall i j, (i < d)%nat -> (j < d)%nat -> Rabs (lower (holds c) i j - about (holds a) m i j) <= (INR (frows a) + 4) * u * (widened (holds a) i * widened (holds a) j) + 4 * tiny).
  { intros i j I J. unfold lower. cbn [holds entry]. destruct (Nat.le_ge_cases i j) as [O|O].
    - rewrite (Nat.max_r _ _ O), (Nat.min_l _ _ O), (SYM i j), (Rmult_comm (widened (holds a) i)). exact (proj1 (V j i J I)).
    - rewrite (Nat.max_l _ _ O), (Nat.min_r _ _ O). exact (proj1 (V i j I J)). }
  pose proof (form_differs d (lower (holds c)) (about (holds a) m) (widened (holds a)) ((INR (frows a) + 4) * u) (4 * tiny) x LOW) as D. apply Rabs_le_inv in D.
  pose proof (form_about (holds a) m x N2) as P. change (cols (holds a)) with d in P.
  assert (CS : forall w, (forall i, 0 <= w i) -> total d (fun i => w i * Rabs (x i)) * total d (fun i => w i * Rabs (x i)) <= total d (fun i => w i * w i) * square d x).
  { intros w W. pose proof (total_cauchy d w (fun i => Rabs (x i))) as Q. cbv beta in Q. rewrite (total_ext d (fun k => Rabs (w k * Rabs (x k))) (fun i => w i * Rabs (x i))) in Q by (intros; rewrite Rabs_mult, Rabs_Rabsolu, (Rabs_pos_eq (w i)) by apply W; reflexivity).
    rewrite (total_ext d (fun k => Rabs (x k) * Rabs (x k)) (fun k => x k * x k)) in Q by (intros; rewrite <- Rabs_mult, Rabs_pos_eq; [reflexivity|nra]). exact Q. }
  pose proof (CS (widened (holds a)) (fun i => widened_pos (holds a) i N2)) as Q1. pose proof (CS (fun _ => 1) (fun _ => Rle_0_1)) as Q2. cbv beta in Q2. rewrite total_const in Q2.
  rewrite !(total_ext d (fun i => 1 * Rabs (x i)) (fun i => Rabs (x i))) in Q2 by (intros; ring).
  assert (U : 0 <= (INR (frows a) + 4) * u) by (pose proof u_pos; pose proof (pos_INR (frows a)); apply Rmult_le_pos; lra). assert (TN : 0 <= 4 * tiny) by (rewrite tiny_h; pose proof h_pos; lra).
  pose proof (Rmult_le_compat_l _ _ _ U Q1) as Q1'. pose proof (Rmult_le_compat_l _ _ _ TN Q2) as Q2'. pose proof (Rmult_lt_compat_r _ _ _ X L) as L'. lra.
Qed.

(** When mean() has a result. *)
Lemma mean_defined a : (exists result, fmean a result) /\ ~ fmean a Throw /\ (fmean a UB <-> frows a = O /\ fcols a <> O) /\ (fmean a UB -> forall m, ~ fmean a (Ok m)).
Proof.
  unfold fmean, fcolwise_mean. destruct (Nat.eqb_spec (frows a) 0) as [E|N]; destruct (Nat.eqb_spec (fcols a) 0) as [E'|N']; cbn [andb negb].
  2:{ split; [exists UB, UB; auto|]. split; [intros (r & -> & X); discriminate X|]. split; [split; [auto|intros _; exists UB; auto]|]. intros _ m (r & -> & X). discriminate X. }
  all: assert (X : exists m : nat -> f64, forall j, exists s, fsum_of (map (fun i => fentry a i j) (seq 0 (frows a))) s /\ m j = fdivide s (of_int (Z.of_nat (frows a))))
      by (exists (fun j => fdivide (fold_right fadd (of_int 0) (map (fun i => fentry a i j) (seq 0 (frows a)))) (of_int (Z.of_nat (frows a)))); intro j; eexists; split; [|reflexivity];
          induction (map (fun i => fentry a i j) (seq 0 (frows a))) as [|x l IH]; [constructor|]; cbn; apply (sum_both (x :: l) [x] l); [reflexivity|constructor|exact IH]).
  all: destruct X as [m X]; split; [exists (Ok (FVector (fcols a) m)), (Ok m); split; [exists m; auto|reflexivity]|]; split; [intros (r & (k & -> & _) & Y); discriminate Y|].
  all: split; [split; [intros (r & (k & -> & _) & Y); discriminate Y|tauto]|intros (r & (k & -> & _) & Y); discriminate Y].
Qed.
